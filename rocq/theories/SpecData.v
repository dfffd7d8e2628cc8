(** Whether the matrices an agent optimises with are those of its data.
    Nothing here computes a matrix: "fresh" means equal to what the accessors
    return when no matrix is stored. *)
From Coq Require Import List NArith Bool.
From Verif Require Import Base SMap Num ModelTypes ModelPoseGraph ModelProblem ModelRobust ModelPoses ModelSolver ModelAgent.
Import ListNotations.
Local Open Scope res_scope.

Section S.
Context {S : Type} `{Num S}.

(** The stored matrix is the one a graph without stored matrices would build
    from the same measurements, weights, priors, activity flags and poses. *)
Definition fresh_Q (g : PoseGraph S) : Prop :=
  exists Q g', pg_Q g = Some Q /\ quadraticMatrix (set_pg_Q g None) = Ok (g', Q).
Definition fresh_G (g : PoseGraph S) : Prop :=
  exists G g', pg_G g = Some G /\ linearMatrix (set_pg_G g None) = Ok (g', G).

(** Two graphs that differ at most in their copy of the neighbours' poses, the
    two matrices and the preconditioner. *)
Definition same_data (g g' : PoseGraph S) : Prop :=
  pg_id g' = pg_id g /\ pg_r g' = pg_r g /\ pg_d g' = pg_d g /\ pg_n g' = pg_n g /\
  pg_odom g' = pg_odom g /\ pg_priv g' = pg_priv g /\ pg_shared g' = pg_shared g /\
  pg_lpub g' = pg_lpub g /\ pg_npub g' = pg_npub g /\ pg_nbrs g' = pg_nbrs g /\
  pg_active g' = pg_active g /\ pg_index g' = pg_index g /\ pg_useinact g' = pg_useinact g /\
  pg_priors g' = pg_priors g.

(** What agent [a] may hand to an optimiser: its own data, the poses it received
    and a linear matrix built from exactly these; then also a quadratic matrix
    built from them. *)
Definition handed (a : Agent S) (g : PoseGraph S) : Prop :=
  same_data (a_pg a) g /\ (pg_nposes g = a_ndict a \/ p_accel (a_params a) = true /\ pg_nposes g = a_naux a) /\ fresh_G g.
Definition proper (a : Agent S) (g : PoseGraph S) : Prop := handed a g /\ fresh_Q g.

(** Two optimisers that cannot be told apart on graphs satisfying [P], and two
    calls that differ only in such optimisers. *)
Definition alike (P : PoseGraph S -> Prop) (f f' : Optimizer S) : Prop := forall g X, P g -> f g X = f' g X.
Definition alike_calls (P : PoseGraph S -> Prop) (o o' : aop S) : Prop :=
  match o, o' with
  | AIterate f b, AIterate f' b' => alike P f f' /\ b = b'
  | AThread f, AThread f' => alike P f f'
  | ARestart f b, ARestart f' b' => alike P f f' /\ b = b'
  | _, _ => False
  end.

(** Calls that change weights or priors while a quadratic matrix is stored, and
    calls that discard the stored matrices. *)
Definition spoils (a : Agent S) (o : aop S) : bool :=
  match pg_Q (a_pg a) with
  | None => false
  | Some _ =>
      match o with
      | ASetWeight _ _ _ _ | AInitRobust | AAnchorFirst | AAnchorWith _ => true
      | AInitGlobal _ => match costType (p_robust (a_params a)) with L2 => false | _ => true end
      | _ => false
      end
  end.
Definition renews (a : Agent S) (o : aop S) : bool :=
  match o with
  | AReset => true
  | AUpdWeights => match a_state a with INITIALIZED => true | _ => false end
  | ASetActive k b =>
      (k <? p_numRobots (a_params a))%N && smem N.ltb k (pg_nbrs (a_pg a)) &&
      match isNeighborActive (a_pg a) k with Ok c => negb (eqb c b) | _ => false end
  | _ => false
  end.

(** Whether the history has a spoiling call that no later call made good. *)
Fixpoint spoilt (x : Ext S) (st : bool) (a : Agent S) (os : list (aop S)) : bool :=
  match os with
  | [] => st
  | o :: os' =>
      match ag_step x a o with
      | Ok a' => spoilt x (if renews a o then false else st || spoils a o) a' os'
      | _ => st
      end
  end.

(** After the calls [os], none of them spoiling or all of it made good, the call
    [o] is to blame: after it and the calls [rest] two optimisers that agree on
    all proper graphs move the agent to different estimates. *)
Definition blamed (x : Ext S) (id : N) (p : AgentParams S) (os : list (aop S)) (o : aop S) (rest : list (aop S)) : Prop :=
  exists a0 a f f' a1 a2 i j, newAgent x id p = Ok a0 /\ spoilt x false a0 os = false /\ ag_run x a0 (os ++ o :: rest) = Ok a /\
    alike (proper a) f f' /\ ag_step x a (AIterate f true) = Ok a1 /\ ag_step x a (AIterate f' true) = Ok a2 /\
    pa_X (a_X a1) i j <> pa_X (a_X a2) i j.
End S.
