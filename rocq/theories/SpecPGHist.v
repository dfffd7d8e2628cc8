(** Abstract history of a pose graph: effect of each call on the record [Hist]
    of SpecPoseGraph.  Only the names of the calls come from the model. *)
From Coq Require Import List NArith Bool.
From Verif Require Import Base SMap Num ModelTypes ModelPoseGraph SpecPoseGraph.
Import ListNotations.
Local Open Scope N_scope.

Section S.
Context {S : Type}.

Definition h_step (id : N) (h : Hist S) (o : pgop S) : Hist S :=
  match o with
  | PAdd m => h_add id h m
  | PSetMeas ms => fold_left (h_add id) ms h_empty
  | PEmpty => h_empty
  | PReset => mkHist (h_in h) (fun _ => true)
  | PActive k b => if h_nbr id h k then mkHist (h_in h) (h_set (h_act h) k b) else h
  | _ => h
  end.

Definition h_run (id : N) (os : list (pgop S)) : Hist S := fold_left (h_step id) os h_empty.

(** What callers must provide: ids in range; the neighbour dictionary is a
    [std::map], so its keys are sorted. *)
Definition op_ok (o : pgop S) : Prop :=
  match o with
  | PAdd m => ids_ok m
  | PSetMeas ms => Forall ids_ok ms
  | PSetNbr d => msorted pose_ltb d
  | _ => True
  end.

End S.

Section Reach.
Context {S : Type} `{Num S}.
Local Open Scope res_scope.

(** Reachable graphs: a fresh graph followed by any calls, none of which aborted. *)
Definition reach (id : N) (r d : nat) (os : list (pgop S)) (g : PoseGraph S) : Prop :=
  (do g0 <- newPoseGraph id r d; pg_run g0 os) = Ok g /\ Forall op_ok os.

(** The two calls that discard the stored measurements. *)
Definition clears (o : pgop S) : bool := match o with PSetMeas _ | PEmpty => true | _ => false end.

(** Every neighbour pose needed by an edge with an active neighbour is cached. *)
Definition needed_known (g : PoseGraph S) : Prop := forall m, In m (pg_shared g) ->
  isNeighborActive g (other_robot (pg_id g) m) = Ok true ->
  exists X, mfind pose_ltb (other_pose (pg_id g) m) (pg_nposes g) = Some X.

(** No edge from a pose to itself; some private edge touches the last pose. *)
Definition no_self (g : PoseGraph S) : Prop :=
  forall m, In m (pg_odom g ++ pg_priv g) -> mp1 m <> mp2 m.
Definition last_private (g : PoseGraph S) : Prop :=
  exists m, In m (pg_odom g ++ pg_priv g) /\ (mp1 m + 1 = pg_n g \/ mp2 m + 1 = pg_n g).

(** Number of list members satisfying a test. *)
Definition count {A} (f : A -> bool) (l : list A) : nat := length (filter f l).
End Reach.

(** Discipline for the cached data matrices. *)
Section Cache.
Context {S : Type} `{Num S}.

Definition some {A} (o : option A) : bool := match o with Some _ => true | None => false end.

(** Calls that change an input of a matrix currently in a cache without
    clearing that cache. *)
Definition dirties (g : PoseGraph S) (o : pgop S) : bool :=
  match o with
  | PAdd _ | PSetPrior _ _ | PClearPriors | PWeight _ _ _ =>
      some (pg_Q g) || some (pg_G g) || some (pg_precon g)
  | PSetNbr _ | PClearNbr => pg_useinact g && (some (pg_Q g) || some (pg_precon g))
  | _ => false
  end.

(** Calls that clear all caches. *)
Definition cleans (o : pgop S) : bool :=
  match o with PClearData | PEmpty | PSetMeas _ | PReset | PUseInactive _ => true | _ => false end.

(** Calls that use the caches. *)
Definition reads (o : pgop S) : bool :=
  match o with PConstruct | PQuadratic | PLinear | PPrecon _ => true | _ => false end.

(** A history in which caches are used, and which ends, only when nothing has
    been dirtied since the last clearing. *)
Fixpoint disciplined (stale : bool) (g : PoseGraph S) (os : list (pgop S)) : Prop :=
  match os with
  | [] => stale = false
  | o :: os' =>
      (reads o = true -> stale = false) /\
      forall g', pg_step g o = Ok g' ->
        disciplined (if cleans o then false else stale || dirties g o) g' os'
  end.
End Cache.
