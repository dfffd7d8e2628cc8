(** Vocabulary for the agent properties: histories and what can be read off
    them, independent of how the agent keeps its counters and tables. *)
From Coq Require Import List NArith ZArith Bool.
From Verif Require Import Base SMap Num ModelTypes ModelPoseGraph ModelRobust ModelPoses ModelSolver ModelAgent SpecPoseGraph.
Import ListNotations.
Local Open Scope res_scope.

Section S.
Context {S : Type} `{Num S}.

(** An array of n poses of size r x (d+1). *)
Definition arr (r d n : nat) (T : PoseArr S) : Prop :=
  pa_r T = r /\ pa_d T = d /\ pa_n T = n /\ mrows (pa_X T) = r /\ mcols (pa_X T) = ((d + 1) * n)%nat.
Definition is_traj (T : PoseArr S) : Prop := arr (pa_d T) (pa_d T) (pa_n T) T.

(** [v] is the i-th r x (d+1) block of [M]. *)
Definition is_block (r d : nat) (M : Mx S) (i : nat) (v : Mx S) : Prop :=
  mrows v = r /\ mcols v = (d + 1)%nat /\
  forall k l, (k < r)%nat -> (l < d + 1)%nat -> v k l = M k (i * (d + 1) + l)%nat.

(** What callers hand in: ids in range, dictionaries with sorted keys
    ([std::map]), trajectories that are [PoseArray]s. *)
Definition aop_ok (o : aop S) : Prop :=
  match o with
  | AAdd m => ids_ok m
  | ASetMeas od priv sh => Forall ids_ok (od ++ priv ++ sh)
  | AInit ls T =>
      (forall T', T = Some T' -> is_traj T') /\
      (forall ms T', ls_chordal ls ms = Ok T' -> is_traj T') /\
      (forall T0 ms T', ls_solve ls T0 ms = Ok T' -> is_traj T')
  | AInitGlobal T => is_traj T /\ pa_n T = 1%nat
  | AUpdNbr _ dict | AUpdAux _ dict => msorted pose_ltb dict
  | _ => True
  end.

(** Reachable agents: construction followed by any calls, none of which aborted. *)
Definition areach (x : Ext S) (id : N) (p : AgentParams S) (os : list (aop S)) (a : Agent S) : Prop :=
  (do a0 <- newAgent x id p; ag_run x a0 os) = Ok a /\ Forall aop_ok os.

(** The calls of a history with the states before and after. *)
Record event := mkEv { e_pre : Agent S; e_op : aop S; e_post : Agent S }.
Fixpoint events (x : Ext S) (a : Agent S) (os : list (aop S)) : list event :=
  match os with
  | [] => []
  | o :: os' => match ag_step x a o with
                | Ok a' => mkEv a o a' :: events x a' os'
                | _ => []
                end
  end.
Definition history (x : Ext S) (id : N) (p : AgentParams S) (os : list (aop S)) : list event :=
  match newAgent x id p with Ok a0 => events x a0 os | _ => [] end.

(** The part of a history after the last event with a property; all of it if
    there is none. *)
Fixpoint since {A} (f : A -> bool) (l : list A) : list A :=
  match l with
  | [] => []
  | e :: l' => if existsb f l' then since f l' else if f e then l' else e :: l'
  end.
(** The part up to and including the last such event; empty if there is none. *)
Fixpoint upto {A} (f : A -> bool) (l : list A) : list A :=
  match l with
  | [] => []
  | e :: l' => if existsb f l' then e :: upto f l' else if f e then [e] else []
  end.
Definition count {A} (f : A -> bool) (l : list A) : N := N.of_nat (length (filter f l)).
Fixpoint last_some {A B} (f : A -> option B) (l : list A) : option B :=
  match l with
  | [] => None
  | e :: l' => match last_some f l' with Some b => Some b | None => f e end
  end.

Definition initialised (a : Agent S) : bool := state_eqb (a_state a) INITIALIZED.

(** Kinds of events.  The optimisation thread iterates only while it exists; a
    weight update before initialisation does nothing. *)
Definition is_reset (e : event) : bool := match e_op e with AReset => true | _ => false end.
Definition is_iter (e : event) : bool :=
  match e_op e with AIterate _ _ => true | AThread _ => a_thread (e_pre e) | _ => false end.
Definition is_reweight (e : event) : bool :=
  match e_op e with AUpdWeights => initialised (e_pre e) | _ => false end.
Definition status_of (k : N) (e : event) : option (Status S) :=
  match e_op e with AStatus s => if (st_id s =? k)%N then Some s else None | _ => None end.
(** Activity of robot k: all active at the start, none after a reset. *)
Definition active_of (k : N) (e : event) : option bool :=
  match e_op e with
  | AReset => Some false
  | ASetActive k' b => if (k' =? k)%N then Some b else None
  | _ => None
  end.
Definition active_now (k : N) (es : list event) : bool :=
  match last_some (active_of k) es with Some b => b | None => true end.

(** Progress of the life cycle. *)
Definition rank (s : AgentState) : nat :=
  match s with WAIT_FOR_DATA => 0 | WAIT_FOR_INITIALIZATION => 1 | INITIALIZED => 2 end.

(** The stored measurements up to weight and fixed flag. *)
Definition stored (a : Agent S) : list (N * N * N * N * Mx S * Mx S * S * S) :=
  map strip (pg_odom (a_pg a) ++ pg_priv (a_pg a) ++ pg_shared (a_pg a)).

(** A loop closure's neighbour takes part in the optimisation. *)
Definition lc_active (a : Agent S) (m : Meas S) : bool :=
  match isNeighborActive (a_pg a) (other_robot (a_id a) m) with Ok b => b | _ => false end.
(** The measurement after a weight update in state [a]: the weight of the robust
    cost at the current residual, unless it is fixed or the residual is unknown. *)
Definition reweighted (a : Agent S) (m : Meas S) : Meas S :=
  if mfixed m then m
  else match ag_residual a m with Ok (Some r) => set_mweight (weight (a_rc a) r) m | _ => m end.
(** Some edge with an active neighbour lacks the neighbour's pose. *)
Definition missing_pose (a : Agent S) (cache : list (PoseID * Mx S)) : Prop :=
  exists m, In m (pg_shared (a_pg a)) /\ isNeighborActive (a_pg a) (other_robot (a_id a) m) = Ok true /\
    mfind pose_ltb (other_pose (a_id a) m) cache = None.

(** The optimiser was run from [start] on the graph of [a] with the given neighbour
    poses, its matrices built, and gave [result]. *)
Definition optimised (opt : Optimizer S) (a : Agent S) (cache : list (PoseID * Mx S)) (start result : Mx S) : Prop :=
  exists g pre, opt g start = (pre, result) /\ pg_nposes g = cache /\
    measurements g = measurements (a_pg a) /\ pg_priors g = pg_priors (a_pg a) /\ pg_active g = pg_active (a_pg a) /\
    pg_useinact g = pg_useinact (a_pg a) /\ pg_n g = pg_n (a_pg a) /\ pg_id g = pg_id (a_pg a) /\
    pg_Q g <> None /\ pg_G g <> None.
(** The new X: the optimiser's result when asked to optimise and successful, [stay]
    when not successful, and [start] when not asked. *)
Definition xstep (opt : Optimizer S) (a : Agent S) (cache : list (PoseID * Mx S)) (b s : bool) (stay start X' : PoseArr S) : Prop :=
  if b then (if s then optimised opt a cache (pa_X start) (pa_X X') else X' = stay)
  else s = true /\ X' = start.
(** [P] is the array of entries F put back on the manifold. *)
Definition projected (x : Ext S) (a : Agent S) (F : nat -> nat -> S) (P : PoseArr S) : Prop :=
  exists M, mrows M = p_r (a_params a) /\ mcols M = ((p_d (a_params a) + 1) * num_poses a)%nat /\
    (forall i j, M i j = F i j) /\
    manifold_project (x_svd_thin x) (p_r (a_params a)) (p_d (a_params a)) (num_poses a) M = Ok (pa_X P).

(** ** Neighbour poses *)

(** The call hands the agent the value [v] for pose [p] of robot k: lifting
    matrix known, robot k reported initialised, this robot initialised (possibly
    by this very call), and a shared edge touches [p]. *)
Definition touches (a : Agent S) (p : PoseID) : Prop :=
  exists m, In m (pg_shared (a_pg a)) /\ other_pose (a_id a) m = p.
Definition receivable (a : Agent S) (k : N) : Prop :=
  a_YLift a <> None /\ exists s, mfind N.ltb k (a_team a) = Some s /\ st_state s = INITIALIZED.
Definition delivers (e : event) (p : PoseID) (v : Mx S) : Prop :=
  match e_op e with
  | AUpdNbr k dict => receivable (e_pre e) k /\ a_state (e_post e) = INITIALIZED /\
                      touches (e_pre e) p /\ mfind pose_ltb p dict = Some v
  | _ => False
  end.
Definition delivers_aux (e : event) (p : PoseID) (v : Mx S) : Prop :=
  match e_op e with
  | AUpdAux k dict => receivable (e_pre e) k /\ a_state (e_pre e) = INITIALIZED /\
                      touches (e_pre e) p /\ mfind pose_ltb p dict = Some v
  | _ => False
  end.
(** The call empties the cache (or drops [p] from it). *)
Definition wipes (e : event) (p : PoseID) : Prop :=
  match e_op e with
  | AReset | AClearNbr | AInitGlobal _ => True
  | AClearActive => isNeighborActive (a_pg (e_pre e)) (robot_id p) = Ok true
  | AUpdWeights => a_state (e_pre e) = INITIALIZED /\ (a_trc (e_pre e) < p_nreset (a_params (e_pre e)))%Z
  | _ => False
  end.

(** The last delivery of a pose that nothing later overwrote or dropped. *)
Definition last_delivery (del : event -> PoseID -> Mx S -> Prop) (es : list event) (p : PoseID) (v : Mx S) : Prop :=
  exists es1 e es2, es = es1 ++ e :: es2 /\ del e p v /\
    forall e', In e' es2 -> ~ wipes e' p /\ forall w, ~ del e' p w.

(** State after a call that did not abort. *)
Definition next_state (a : Agent S) (o : aop S) (s' : AgentState) : Prop :=
  match o with
  | AReset => s' = WAIT_FOR_DATA
  | ASetX _ | AInitGlobal _ => a_state a <> WAIT_FOR_DATA /\ s' = INITIALIZED
  | AInit _ _ => s' = match a_state a with
                      | WAIT_FOR_DATA => if (pg_n (a_pg a) =? 0)%N then WAIT_FOR_DATA
                                         else if (a_id a =? 0)%N || negb (p_multi (a_params a)) then INITIALIZED
                                         else WAIT_FOR_INITIALIZATION
                      | s => s end
  | AUpdNbr _ _ => s' = a_state a \/ a_state a = WAIT_FOR_INITIALIZATION /\ s' = INITIALIZED
  | _ => s' = a_state a
  end.

(** Calls that hand in measurements. *)
Definition feeds (o : aop S) : bool := match o with AAdd _ | ASetMeas _ _ _ => true | _ => false end.

(** A dictionary over the own ends of the selected shared edges, with the blocks
    of [M] as values. *)
Definition dict_spec (a : Agent S) (M : Mx S) (sel : Meas S -> Prop) (D : list (PoseID * Mx S)) : Prop :=
  msorted pose_ltb D /\
  forall p v, mfind pose_ltb p D = Some v <->
    (exists m, In m (pg_shared (a_pg a)) /\ sel m /\ own_pose (a_id a) m = p) /\
    v = mblock M 0 (N.to_nat (frame_id p) * (p_d (a_params a) + 1)) (p_r (a_params a)) (p_d (a_params a) + 1).


(** Two lists agree position by position, except where [P] allows a change. *)
Definition same_unless (P : Meas S -> bool) (l l' : list (Meas S)) : Prop :=
  Forall2 (fun m m' => P m = false -> m' = m) l l'.

End S.
Arguments event : clear implicits.
