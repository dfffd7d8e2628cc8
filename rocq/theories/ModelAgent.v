(** One agent (robot) of the distributed solver.
    Source: include/DPGO/PGOAgent.h, src/PGOAgent.cpp.

    Sequential semantics: every public or protected member function is one
    state change; locks and the interleaving inside a call are the subject of
    ModelThreads.v.  Timers, console output and the files written when
    [logData] is set are omitted (the reads they need are kept, because they
    can abort).  A [LiftedPose] in a [PoseDict] is its r x (d+1) matrix, as in
    ModelPoseGraph.v.  [unordered_map] mTeamStatus is only searched, assigned
    and cleared, so a sorted association list represents it. *)
From Coq Require Import List NArith ZArith Bool Arith.
From Verif Require Import Base SMap Num ModelTypes ModelPoseGraph ModelProblem ModelRobust ModelPoses ModelSolver.
Import ListNotations.
Local Open Scope res_scope.

(** PGOAgent.h:185-193 [PGOAgentState] *)
Inductive AgentState := WAIT_FOR_DATA | WAIT_FOR_INITIALIZATION | INITIALIZED.
Definition state_eqb (a b : AgentState) : bool :=
  match a, b with
  | WAIT_FOR_DATA, WAIT_FOR_DATA | WAIT_FOR_INITIALIZATION, WAIT_FOR_INITIALIZATION
  | INITIALIZED, INITIALIZED => true
  | _, _ => false
  end.

(** DPGO_types.h:33-37 [InitializationMethod] *)
Inductive InitMethod := InitOdometry | InitChordal | InitGNC.

(** [int] addition: overflow is undefined. *)
Definition int_max : Z := 2147483647%Z.
Definition int_incr (x : Z) : res Z := require (x <? int_max)%Z (Ok (x + 1)%Z).

Section Agent.
Context {S : Type} `{Num S}.
Local Open Scope num_scope.

(** PGOAgent.h:47-151 [PGOAgentParameters]; asynchronousOptimizationRate,
    localOptimizationParams, verbose and logDirectory are not used by the model. *)
Record AgentParams := mkAP {
  p_d : nat; p_r : nat; p_numRobots : N; p_async : bool; p_init : InitMethod;
  p_multi : bool; p_accel : bool; p_restart : N; p_robust : RobustParams S;
  p_nwu : Z; p_nreset : Z; p_innerIters : Z; p_minratio : S; p_mininl : N;
  p_maxit : N; p_reltol : S; p_log : bool }.

(** PGOAgent.h:196-228 [PGOAgentStatus] *)
Record Status := mkStatus {
  st_id : N; st_state : AgentState; st_inst : N; st_iter : N; st_ready : bool; st_change : S }.

(** Linear algebra and random numbers supplied by other libraries: singular
    value decompositions, determinant, inverse (Eigen); [fixedStiefelVariable]
    (DPGO_utils.cpp:488-493, ROPTLIB random matrix with a fixed seed);
    [angular2ChordalSO3(0.5)] (514-516); see ModelSolver.v for [mudiv]. *)
Record Ext := mkExt {
  x_svd_full : Mx S -> Mx S * Mx S; x_det : Mx S -> S; x_svd_thin : Mx S -> Mx S * Mx S;
  x_minv : Mx S -> Mx S; x_mudiv : S -> S -> S;
  x_fixedY : nat -> nat -> Mx S; x_maxrot : S }.

(** Solvers used by [initialize], different at each call if need be:
    [chordalInitialization] and [solvePGO] with its initial guess. *)
Record LocalSolvers := mkLS {
  ls_chordal : list (Meas S) -> res (PoseArr S);
  ls_solve : PoseArr S -> list (Meas S) -> res (PoseArr S) }.

(** The local optimiser ([QuadraticOptimizer::optimize] on the problem of the
    pose graph): the preconditioner it leaves in the pose graph and its result. *)
Definition Optimizer : Type := PoseGraph S -> Mx S -> option (Mx S) * Mx S.

(** PGOAgent.h:556-648, 731-748: the data members. *)
Record Agent := mkAgent {
  a_id : N  (* mID *);
  a_params : AgentParams  (* mParams *);
  a_X : PoseArr S  (* X *);
  a_state : AgentState  (* mState *);
  a_status : Status  (* mStatus *);
  a_rc : RobustCost S  (* mRobustCost *);
  a_pg : PoseGraph S  (* *mPoseGraph *);
  a_inst : N  (* mInstanceNumber *);
  a_iter : N  (* mIterationNumber *);
  a_lwu : N  (* mLatestWeightUpdateIteration *);
  a_inner : Z  (* mRobustOptInnerIter *);
  a_wuc : Z  (* mWeightUpdateCount *);
  a_trc : Z  (* mTrajectoryResetCount *);
  a_team : list (N * Status)  (* mTeamStatus *);
  a_active : list bool  (* mTeamRobotActive *);
  a_pub : bool  (* mPublishPublicPosesRequested *);
  a_pubasync : bool  (* mPublishAsynchronousRequested *);
  a_XInit : option (PoseArr S)  (* XInit *);
  a_TLocal : option (PoseArr S)  (* TLocalInit *);
  a_YLift : option (Mx S)  (* YLift *);
  a_anchor : option (Mx S)  (* globalAnchor *);
  a_ndict : list (PoseID * Mx S)  (* neighborPoseDict *);
  a_naux : list (PoseID * Mx S)  (* neighborAuxPoseDict *);
  a_thread : bool  (* mOptimizationThread != nullptr *);
  a_gamma : S  (* gamma *);
  a_alpha : S  (* alpha *);
  a_Y : PoseArr S  (* Y *);
  a_V : PoseArr S  (* V *);
  a_XPrev : PoseArr S  (* XPrev *) }.

Definition sa_id (x : Agent) (v : N) : Agent := mkAgent v (a_params x) (a_X x) (a_state x) (a_status x) (a_rc x) (a_pg x) (a_inst x) (a_iter x) (a_lwu x) (a_inner x) (a_wuc x) (a_trc x) (a_team x) (a_active x) (a_pub x) (a_pubasync x) (a_XInit x) (a_TLocal x) (a_YLift x) (a_anchor x) (a_ndict x) (a_naux x) (a_thread x) (a_gamma x) (a_alpha x) (a_Y x) (a_V x) (a_XPrev x).
Definition sa_params (x : Agent) (v : AgentParams) : Agent := mkAgent (a_id x) v (a_X x) (a_state x) (a_status x) (a_rc x) (a_pg x) (a_inst x) (a_iter x) (a_lwu x) (a_inner x) (a_wuc x) (a_trc x) (a_team x) (a_active x) (a_pub x) (a_pubasync x) (a_XInit x) (a_TLocal x) (a_YLift x) (a_anchor x) (a_ndict x) (a_naux x) (a_thread x) (a_gamma x) (a_alpha x) (a_Y x) (a_V x) (a_XPrev x).
Definition sa_X (x : Agent) (v : PoseArr S) : Agent := mkAgent (a_id x) (a_params x) v (a_state x) (a_status x) (a_rc x) (a_pg x) (a_inst x) (a_iter x) (a_lwu x) (a_inner x) (a_wuc x) (a_trc x) (a_team x) (a_active x) (a_pub x) (a_pubasync x) (a_XInit x) (a_TLocal x) (a_YLift x) (a_anchor x) (a_ndict x) (a_naux x) (a_thread x) (a_gamma x) (a_alpha x) (a_Y x) (a_V x) (a_XPrev x).
Definition sa_state (x : Agent) (v : AgentState) : Agent := mkAgent (a_id x) (a_params x) (a_X x) v (a_status x) (a_rc x) (a_pg x) (a_inst x) (a_iter x) (a_lwu x) (a_inner x) (a_wuc x) (a_trc x) (a_team x) (a_active x) (a_pub x) (a_pubasync x) (a_XInit x) (a_TLocal x) (a_YLift x) (a_anchor x) (a_ndict x) (a_naux x) (a_thread x) (a_gamma x) (a_alpha x) (a_Y x) (a_V x) (a_XPrev x).
Definition sa_status (x : Agent) (v : Status) : Agent := mkAgent (a_id x) (a_params x) (a_X x) (a_state x) v (a_rc x) (a_pg x) (a_inst x) (a_iter x) (a_lwu x) (a_inner x) (a_wuc x) (a_trc x) (a_team x) (a_active x) (a_pub x) (a_pubasync x) (a_XInit x) (a_TLocal x) (a_YLift x) (a_anchor x) (a_ndict x) (a_naux x) (a_thread x) (a_gamma x) (a_alpha x) (a_Y x) (a_V x) (a_XPrev x).
Definition sa_rc (x : Agent) (v : RobustCost S) : Agent := mkAgent (a_id x) (a_params x) (a_X x) (a_state x) (a_status x) v (a_pg x) (a_inst x) (a_iter x) (a_lwu x) (a_inner x) (a_wuc x) (a_trc x) (a_team x) (a_active x) (a_pub x) (a_pubasync x) (a_XInit x) (a_TLocal x) (a_YLift x) (a_anchor x) (a_ndict x) (a_naux x) (a_thread x) (a_gamma x) (a_alpha x) (a_Y x) (a_V x) (a_XPrev x).
Definition sa_pg (x : Agent) (v : PoseGraph S) : Agent := mkAgent (a_id x) (a_params x) (a_X x) (a_state x) (a_status x) (a_rc x) v (a_inst x) (a_iter x) (a_lwu x) (a_inner x) (a_wuc x) (a_trc x) (a_team x) (a_active x) (a_pub x) (a_pubasync x) (a_XInit x) (a_TLocal x) (a_YLift x) (a_anchor x) (a_ndict x) (a_naux x) (a_thread x) (a_gamma x) (a_alpha x) (a_Y x) (a_V x) (a_XPrev x).
Definition sa_inst (x : Agent) (v : N) : Agent := mkAgent (a_id x) (a_params x) (a_X x) (a_state x) (a_status x) (a_rc x) (a_pg x) v (a_iter x) (a_lwu x) (a_inner x) (a_wuc x) (a_trc x) (a_team x) (a_active x) (a_pub x) (a_pubasync x) (a_XInit x) (a_TLocal x) (a_YLift x) (a_anchor x) (a_ndict x) (a_naux x) (a_thread x) (a_gamma x) (a_alpha x) (a_Y x) (a_V x) (a_XPrev x).
Definition sa_iter (x : Agent) (v : N) : Agent := mkAgent (a_id x) (a_params x) (a_X x) (a_state x) (a_status x) (a_rc x) (a_pg x) (a_inst x) v (a_lwu x) (a_inner x) (a_wuc x) (a_trc x) (a_team x) (a_active x) (a_pub x) (a_pubasync x) (a_XInit x) (a_TLocal x) (a_YLift x) (a_anchor x) (a_ndict x) (a_naux x) (a_thread x) (a_gamma x) (a_alpha x) (a_Y x) (a_V x) (a_XPrev x).
Definition sa_lwu (x : Agent) (v : N) : Agent := mkAgent (a_id x) (a_params x) (a_X x) (a_state x) (a_status x) (a_rc x) (a_pg x) (a_inst x) (a_iter x) v (a_inner x) (a_wuc x) (a_trc x) (a_team x) (a_active x) (a_pub x) (a_pubasync x) (a_XInit x) (a_TLocal x) (a_YLift x) (a_anchor x) (a_ndict x) (a_naux x) (a_thread x) (a_gamma x) (a_alpha x) (a_Y x) (a_V x) (a_XPrev x).
Definition sa_inner (x : Agent) (v : Z) : Agent := mkAgent (a_id x) (a_params x) (a_X x) (a_state x) (a_status x) (a_rc x) (a_pg x) (a_inst x) (a_iter x) (a_lwu x) v (a_wuc x) (a_trc x) (a_team x) (a_active x) (a_pub x) (a_pubasync x) (a_XInit x) (a_TLocal x) (a_YLift x) (a_anchor x) (a_ndict x) (a_naux x) (a_thread x) (a_gamma x) (a_alpha x) (a_Y x) (a_V x) (a_XPrev x).
Definition sa_wuc (x : Agent) (v : Z) : Agent := mkAgent (a_id x) (a_params x) (a_X x) (a_state x) (a_status x) (a_rc x) (a_pg x) (a_inst x) (a_iter x) (a_lwu x) (a_inner x) v (a_trc x) (a_team x) (a_active x) (a_pub x) (a_pubasync x) (a_XInit x) (a_TLocal x) (a_YLift x) (a_anchor x) (a_ndict x) (a_naux x) (a_thread x) (a_gamma x) (a_alpha x) (a_Y x) (a_V x) (a_XPrev x).
Definition sa_trc (x : Agent) (v : Z) : Agent := mkAgent (a_id x) (a_params x) (a_X x) (a_state x) (a_status x) (a_rc x) (a_pg x) (a_inst x) (a_iter x) (a_lwu x) (a_inner x) (a_wuc x) v (a_team x) (a_active x) (a_pub x) (a_pubasync x) (a_XInit x) (a_TLocal x) (a_YLift x) (a_anchor x) (a_ndict x) (a_naux x) (a_thread x) (a_gamma x) (a_alpha x) (a_Y x) (a_V x) (a_XPrev x).
Definition sa_team (x : Agent) (v : list (N * Status)) : Agent := mkAgent (a_id x) (a_params x) (a_X x) (a_state x) (a_status x) (a_rc x) (a_pg x) (a_inst x) (a_iter x) (a_lwu x) (a_inner x) (a_wuc x) (a_trc x) v (a_active x) (a_pub x) (a_pubasync x) (a_XInit x) (a_TLocal x) (a_YLift x) (a_anchor x) (a_ndict x) (a_naux x) (a_thread x) (a_gamma x) (a_alpha x) (a_Y x) (a_V x) (a_XPrev x).
Definition sa_active (x : Agent) (v : list bool) : Agent := mkAgent (a_id x) (a_params x) (a_X x) (a_state x) (a_status x) (a_rc x) (a_pg x) (a_inst x) (a_iter x) (a_lwu x) (a_inner x) (a_wuc x) (a_trc x) (a_team x) v (a_pub x) (a_pubasync x) (a_XInit x) (a_TLocal x) (a_YLift x) (a_anchor x) (a_ndict x) (a_naux x) (a_thread x) (a_gamma x) (a_alpha x) (a_Y x) (a_V x) (a_XPrev x).
Definition sa_pub (x : Agent) (v : bool) : Agent := mkAgent (a_id x) (a_params x) (a_X x) (a_state x) (a_status x) (a_rc x) (a_pg x) (a_inst x) (a_iter x) (a_lwu x) (a_inner x) (a_wuc x) (a_trc x) (a_team x) (a_active x) v (a_pubasync x) (a_XInit x) (a_TLocal x) (a_YLift x) (a_anchor x) (a_ndict x) (a_naux x) (a_thread x) (a_gamma x) (a_alpha x) (a_Y x) (a_V x) (a_XPrev x).
Definition sa_pubasync (x : Agent) (v : bool) : Agent := mkAgent (a_id x) (a_params x) (a_X x) (a_state x) (a_status x) (a_rc x) (a_pg x) (a_inst x) (a_iter x) (a_lwu x) (a_inner x) (a_wuc x) (a_trc x) (a_team x) (a_active x) (a_pub x) v (a_XInit x) (a_TLocal x) (a_YLift x) (a_anchor x) (a_ndict x) (a_naux x) (a_thread x) (a_gamma x) (a_alpha x) (a_Y x) (a_V x) (a_XPrev x).
Definition sa_XInit (x : Agent) (v : option (PoseArr S)) : Agent := mkAgent (a_id x) (a_params x) (a_X x) (a_state x) (a_status x) (a_rc x) (a_pg x) (a_inst x) (a_iter x) (a_lwu x) (a_inner x) (a_wuc x) (a_trc x) (a_team x) (a_active x) (a_pub x) (a_pubasync x) v (a_TLocal x) (a_YLift x) (a_anchor x) (a_ndict x) (a_naux x) (a_thread x) (a_gamma x) (a_alpha x) (a_Y x) (a_V x) (a_XPrev x).
Definition sa_TLocal (x : Agent) (v : option (PoseArr S)) : Agent := mkAgent (a_id x) (a_params x) (a_X x) (a_state x) (a_status x) (a_rc x) (a_pg x) (a_inst x) (a_iter x) (a_lwu x) (a_inner x) (a_wuc x) (a_trc x) (a_team x) (a_active x) (a_pub x) (a_pubasync x) (a_XInit x) v (a_YLift x) (a_anchor x) (a_ndict x) (a_naux x) (a_thread x) (a_gamma x) (a_alpha x) (a_Y x) (a_V x) (a_XPrev x).
Definition sa_YLift (x : Agent) (v : option (Mx S)) : Agent := mkAgent (a_id x) (a_params x) (a_X x) (a_state x) (a_status x) (a_rc x) (a_pg x) (a_inst x) (a_iter x) (a_lwu x) (a_inner x) (a_wuc x) (a_trc x) (a_team x) (a_active x) (a_pub x) (a_pubasync x) (a_XInit x) (a_TLocal x) v (a_anchor x) (a_ndict x) (a_naux x) (a_thread x) (a_gamma x) (a_alpha x) (a_Y x) (a_V x) (a_XPrev x).
Definition sa_anchor (x : Agent) (v : option (Mx S)) : Agent := mkAgent (a_id x) (a_params x) (a_X x) (a_state x) (a_status x) (a_rc x) (a_pg x) (a_inst x) (a_iter x) (a_lwu x) (a_inner x) (a_wuc x) (a_trc x) (a_team x) (a_active x) (a_pub x) (a_pubasync x) (a_XInit x) (a_TLocal x) (a_YLift x) v (a_ndict x) (a_naux x) (a_thread x) (a_gamma x) (a_alpha x) (a_Y x) (a_V x) (a_XPrev x).
Definition sa_ndict (x : Agent) (v : list (PoseID * Mx S)) : Agent := mkAgent (a_id x) (a_params x) (a_X x) (a_state x) (a_status x) (a_rc x) (a_pg x) (a_inst x) (a_iter x) (a_lwu x) (a_inner x) (a_wuc x) (a_trc x) (a_team x) (a_active x) (a_pub x) (a_pubasync x) (a_XInit x) (a_TLocal x) (a_YLift x) (a_anchor x) v (a_naux x) (a_thread x) (a_gamma x) (a_alpha x) (a_Y x) (a_V x) (a_XPrev x).
Definition sa_naux (x : Agent) (v : list (PoseID * Mx S)) : Agent := mkAgent (a_id x) (a_params x) (a_X x) (a_state x) (a_status x) (a_rc x) (a_pg x) (a_inst x) (a_iter x) (a_lwu x) (a_inner x) (a_wuc x) (a_trc x) (a_team x) (a_active x) (a_pub x) (a_pubasync x) (a_XInit x) (a_TLocal x) (a_YLift x) (a_anchor x) (a_ndict x) v (a_thread x) (a_gamma x) (a_alpha x) (a_Y x) (a_V x) (a_XPrev x).
Definition sa_thread (x : Agent) (v : bool) : Agent := mkAgent (a_id x) (a_params x) (a_X x) (a_state x) (a_status x) (a_rc x) (a_pg x) (a_inst x) (a_iter x) (a_lwu x) (a_inner x) (a_wuc x) (a_trc x) (a_team x) (a_active x) (a_pub x) (a_pubasync x) (a_XInit x) (a_TLocal x) (a_YLift x) (a_anchor x) (a_ndict x) (a_naux x) v (a_gamma x) (a_alpha x) (a_Y x) (a_V x) (a_XPrev x).
Definition sa_gamma (x : Agent) (v : S) : Agent := mkAgent (a_id x) (a_params x) (a_X x) (a_state x) (a_status x) (a_rc x) (a_pg x) (a_inst x) (a_iter x) (a_lwu x) (a_inner x) (a_wuc x) (a_trc x) (a_team x) (a_active x) (a_pub x) (a_pubasync x) (a_XInit x) (a_TLocal x) (a_YLift x) (a_anchor x) (a_ndict x) (a_naux x) (a_thread x) v (a_alpha x) (a_Y x) (a_V x) (a_XPrev x).
Definition sa_alpha (x : Agent) (v : S) : Agent := mkAgent (a_id x) (a_params x) (a_X x) (a_state x) (a_status x) (a_rc x) (a_pg x) (a_inst x) (a_iter x) (a_lwu x) (a_inner x) (a_wuc x) (a_trc x) (a_team x) (a_active x) (a_pub x) (a_pubasync x) (a_XInit x) (a_TLocal x) (a_YLift x) (a_anchor x) (a_ndict x) (a_naux x) (a_thread x) (a_gamma x) v (a_Y x) (a_V x) (a_XPrev x).
Definition sa_Y (x : Agent) (v : PoseArr S) : Agent := mkAgent (a_id x) (a_params x) (a_X x) (a_state x) (a_status x) (a_rc x) (a_pg x) (a_inst x) (a_iter x) (a_lwu x) (a_inner x) (a_wuc x) (a_trc x) (a_team x) (a_active x) (a_pub x) (a_pubasync x) (a_XInit x) (a_TLocal x) (a_YLift x) (a_anchor x) (a_ndict x) (a_naux x) (a_thread x) (a_gamma x) (a_alpha x) v (a_V x) (a_XPrev x).
Definition sa_V (x : Agent) (v : PoseArr S) : Agent := mkAgent (a_id x) (a_params x) (a_X x) (a_state x) (a_status x) (a_rc x) (a_pg x) (a_inst x) (a_iter x) (a_lwu x) (a_inner x) (a_wuc x) (a_trc x) (a_team x) (a_active x) (a_pub x) (a_pubasync x) (a_XInit x) (a_TLocal x) (a_YLift x) (a_anchor x) (a_ndict x) (a_naux x) (a_thread x) (a_gamma x) (a_alpha x) (a_Y x) v (a_XPrev x).
Definition sa_XPrev (x : Agent) (v : PoseArr S) : Agent := mkAgent (a_id x) (a_params x) (a_X x) (a_state x) (a_status x) (a_rc x) (a_pg x) (a_inst x) (a_iter x) (a_lwu x) (a_inner x) (a_wuc x) (a_trc x) (a_team x) (a_active x) (a_pub x) (a_pubasync x) (a_XInit x) (a_TLocal x) (a_YLift x) (a_anchor x) (a_ndict x) (a_naux x) (a_thread x) (a_gamma x) (a_alpha x) (a_Y x) (a_V x) v.

(** PGOAgent.h:316-326 *)
Definition num_poses (a : Agent) : nat := N.to_nat (pg_n (a_pg a)).
Definition dimension (a : Agent) : nat := pg_d (a_pg a).
Definition relaxation_rank (a : Agent) : nat := pg_r (a_pg a).
Definition robust (a : Agent) : bool := negb (cost_type_eqb (costType (p_robust (a_params a))) L2).
Definition is_init (a : Agent) : bool := state_eqb (a_state a) INITIALIZED.

(** PGOAgent.cpp:168-172 [setLiftingMatrix] *)
Definition ag_setLiftingMatrix (a : Agent) (M : Mx S) : res Agent :=
  check (mrows M =? p_r (a_params a))%nat (check (mcols M =? p_d (a_params a))%nat (Ok (sa_YLift a (Some M)))).

(** PGOAgent.cpp:29-45 constructor *)
Definition newAgent (x : Ext) (ID : N) (p : AgentParams) : res Agent :=
  do X <- pa_new (p_r p) (p_d p) 1;
  do g <- newPoseGraph ID (p_r p) (p_d p);
  let a := mkAgent ID p X WAIT_FOR_DATA (mkStatus ID WAIT_FOR_DATA 0 0 false n0) (rc_new (p_robust p)) g
             0 0 0 0 0 0 [] [] false false None None None None [] [] false n0 n0 X X X in
  do a <- (if (ID =? 0)%N then ag_setLiftingMatrix a (x_fixedY x (p_d p) (p_r p)) else Ok a);
  Ok (sa_active a (repeat true (N.to_nat (p_numRobots p)))).

(** PGOAgent.cpp:899-908 [initializeAcceleration] *)
Definition ag_initializeAcceleration (a : Agent) : res Agent :=
  check (p_accel (a_params a)) (
    if is_init a then
      let a := sa_XPrev a (a_X a) in
      let a := sa_gamma a n0 in
      let a := sa_alpha a n0 in
      let a := sa_V a (a_X a) in
      Ok (sa_Y a (a_X a))
    else Ok a).

(** PGOAgent.cpp:52-63 [setX] *)
Definition ag_setX (a : Agent) (Xin : Mx S) : res Agent :=
  check (negb (state_eqb (a_state a) WAIT_FOR_DATA)) (
  check (mrows Xin =? relaxation_rank a)%nat (
  check (mcols Xin =? (dimension a + 1) * num_poses a)%nat (
    let a := sa_state a INITIALIZED in
    do X <- pa_setData (a_X a) Xin;
    let a := sa_X a X in
    if p_accel (a_params a) then ag_initializeAcceleration a else Ok a))).

(** PGOAgent.cpp:65-70 [setXToInitialGuess] *)
Definition ag_setXToInitialGuess (a : Agent) : res Agent :=
  check (negb (state_eqb (a_state a) WAIT_FOR_DATA)) (
    match a_XInit a with Some X => Ok (sa_X a X) | None => Abort end).

(** PGOAgent.cpp:72-76 [getX] *)
Definition ag_getX (a : Agent) : res (Mx S) := Ok (pa_X (a_X a)).

(** PGOAgent.cpp:78-85 [getSharedPose], 87-95 [getAuxSharedPose]; [None] is the
    result [false] with the output untouched. *)
Definition ag_getSharedPose (a : Agent) (index : N) : res (option (Mx S)) :=
  if negb (is_init a) then Ok None
  else if (pg_n (a_pg a) <=? index)%N then Ok None
  else do M <- pa_pose (a_X a) (N.to_nat index); Ok (Some M).
Definition ag_getAuxSharedPose (a : Agent) (index : N) : res (option (Mx S)) :=
  check (p_accel (a_params a)) (
  if negb (is_init a) then Ok None
  else if (pg_n (a_pg a) <=? index)%N then Ok None
  else do M <- pa_pose (a_Y a) (N.to_nat index); Ok (Some M)).

(** The loop of PGOAgent.cpp:102-108 and 138-144 over [myPublicPoseIDs]. *)
Definition pose_dict (a : Agent) (X : PoseArr S) : res (list (PoseID * Mx S)) :=
  foldM (fun map p =>
    check (robot_id p =? a_id a)%N (
      do M <- pa_pose X (N.to_nat (frame_id p));
      Ok (memplace pose_ltb p M map))) [] (pg_lpub (a_pg a)).
(** The loop of PGOAgent.cpp:117-128 and 153-164. *)
Definition pose_dict_with (a : Agent) (X : PoseArr S) (k : N) : res (list (PoseID * Mx S)) :=
  foldM (fun map m =>
    if (mr1 m =? a_id a)%N then
      do M <- pa_pose X (N.to_nat (u32 (mp1 m)));
      Ok (memplace pose_ltb (pose_of (mr1 m) (mp1 m)) M map)
    else if (mr2 m =? a_id a)%N then
      do M <- pa_pose X (N.to_nat (u32 (mp2 m)));
      Ok (memplace pose_ltb (pose_of (mr2 m) (mp2 m)) M map)
    else Ok map) [] (sharedLoopClosuresWithRobot (a_pg a) k).

(** PGOAgent.cpp:97-110, 112-130, 132-147, 149-166 *)
Definition ag_getSharedPoseDict (a : Agent) : res (option (list (PoseID * Mx S))) :=
  if negb (is_init a) then Ok None else do m <- pose_dict a (a_X a); Ok (Some m).
Definition ag_getSharedPoseDictWithNeighbor (a : Agent) (k : N) : res (option (list (PoseID * Mx S))) :=
  if negb (is_init a) then Ok None else do m <- pose_dict_with a (a_X a) k; Ok (Some m).
Definition ag_getAuxSharedPoseDict (a : Agent) : res (option (list (PoseID * Mx S))) :=
  check (p_accel (a_params a)) (
  if negb (is_init a) then Ok None else do m <- pose_dict a (a_Y a); Ok (Some m)).
Definition ag_getAuxSharedPoseDictWithNeighbor (a : Agent) (k : N) : res (option (list (PoseID * Mx S))) :=
  if negb (is_init a) then Ok None else do m <- pose_dict_with a (a_Y a) k; Ok (Some m).

(** PGOAgent.cpp:174-182 [addMeasurement] *)
Definition ag_addMeasurement (a : Agent) (m : Meas S) : res Agent :=
  if negb (state_eqb (a_state a) WAIT_FOR_DATA) then Ok a
  else do g <- addMeasurement (a_pg a) m; Ok (sa_pg a g).

(** PGOAgent.cpp:184-197 [setMeasurements] *)
Definition ag_setMeasurements (a : Agent) (od priv sh : list (Meas S)) : res Agent :=
  check (negb (a_thread a)) (
  check (state_eqb (a_state a) WAIT_FOR_DATA) (
    match od with
    | [] => Ok a
    | _ =>
        do g <- newPoseGraph (a_id a) (p_r (a_params a)) (p_d (a_params a));
        do g <- setMeasurements g (od ++ priv ++ sh);
        Ok (sa_pg a g)
    end)).

(** PGOAgent.cpp:704-708 [clearNeighborPoses], 710-716 [clearActiveNeighborPoses] *)
Definition ag_clearNeighborPoses (a : Agent) : Agent := sa_naux (sa_ndict a []) [].
Definition ag_clearActiveNeighborPoses (a : Agent) : res Agent :=
  do ids <- activeNeighborPublicPoseIDs (a_pg a);
  Ok (sa_naux (sa_ndict a (fold_left (fun m p => merase pose_ltb p m) ids (a_ndict a)))
        (fold_left (fun m p => merase pose_ltb p m) ids (a_naux a))).

(** PGOAgent.cpp:475-484 [startOptimizationLoop], 501-509 [endOptimizationLoop]
    (the thread itself is modelled in ModelThreads.v). *)
Definition ag_startOptimizationLoop (a : Agent) : res Agent :=
  check (negb (p_accel (a_params a))) (if a_thread a then Ok a else Ok (sa_thread a true)).
Definition ag_endOptimizationLoop (a : Agent) : Agent := if a_thread a then sa_thread a false else a.

(** PGOAgent.cpp:1144-1155 [setMeasurementWeight] *)
Definition ag_setMeasurementWeight (a : Agent) (src dst : PoseID) (w : S) (fixed : bool) : res (Agent * bool) :=
  do o <- findMeasurement (a_pg a) src dst;
  match o with
  | Some p => Ok (sa_pg a (modify (a_pg a) p (fun m => set_mfixed fixed (set_mweight w m))), true)
  | None => Ok (a, false)
  end.

(** PGOAgent.cpp:1048-1060 [initializeRobustOptimization] *)
Definition ag_initializeRobustOptimization (a : Agent) : res Agent :=
  let a := sa_rc a (rc_reset (a_rc a)) in
  do ps <- activeLoopClosures (a_pg a);
  let g := fold_left (fun g p => modify g p (fun m => if mfixed m then m else set_mweight n1 m)) ps (a_pg a) in
  Ok (sa_pg a g).

(** The loop of PGOAgent.cpp:328-333: T_world_robot applied to every pose. *)
Definition transform_all (TW : PoseArr S) (n : nat) (T : PoseArr S) : res (PoseArr S) :=
  foldM (fun T i =>
    do Ti <- pa_pose T i; do P <- pose_of_mx Ti;
    do W <- pose_mul TW P; pa_set_pose T i (pa_X W)) T (seq 0 n).

(** PGOAgent.cpp:308-374 [initializeInGlobalFrame] *)
Definition ag_initializeInGlobalFrame (a : Agent) (TW : PoseArr S) : res Agent :=
  do YL <- match a_YLift a with Some Y => Ok Y | None => Abort end;
  check (pa_d TW =? dimension a)%nat (
  do RW <- pa_rot TW 0; do _ <- checkRotationMatrix RW;
  let halted := a_thread a in
  let a := ag_endOptimizationLoop a in
  let a := ag_clearNeighborPoses a in
  do T <- opt_value (a_TLocal a);
  do T <- transform_all TW (num_poses a) T;
  require (can_mul YL (pa_X T)) (
  do X <- pa_setData (a_X a) (mmul YL (pa_X T));
  let a := sa_XInit (sa_X a X) (Some X) in
  let a := sa_state a INITIALIZED in
  do a <- (if robust a then ag_initializeRobustOptimization a else Ok a);
  do a <- (if p_accel (a_params a) then ag_initializeAcceleration a else Ok a);
  if halted then ag_startOptimizationLoop a else Ok a)).

(** PGOAgent.cpp:283-290: express the trajectory relative to its first pose. *)
Definition to_first_frame (x : Ext) (d n : nat) (T : PoseArr S) : res (PoseArr S) :=
  do T' <- pa_new d d n;
  do P0 <- pa_pose T 0; do Tw0 <- pose_of_mx P0;
  foldM (fun T' i =>
    do Pi <- pa_pose T i; do Twi <- pose_of_mx Pi;
    do I0 <- pose_inverse (x_minv x) Tw0;
    do T0i <- pose_mul I0 Twi;
    pa_set_pose T' i (pa_X T0i)) T' (seq 0 n).

(** PGOAgent.cpp:228-241: parameters of the GNC initialisation. *)
Definition init_gnc_params : RobustParams S :=
  let p := default_robust GNC_TLS in
  mkRobustParams GNC_TLS 10 (nofZ 5) (nlit 14 10) (GNCInitMu p) (HuberThreshold p) (TLSThreshold p).

(** PGOAgent.cpp:216-262: the local trajectory by the chosen method. *)
Definition local_trajectory (x : Ext) (ls : LocalSolvers) (a : Agent) : res (Agent * PoseArr S) :=
  match p_init (a_params a) with
  | InitOdometry => do T <- odometryInitialization (pg_odom (a_pg a)) None; Ok (a, T)
  | InitChordal => do T <- ls_chordal ls (localMeasurements (a_pg a)); Ok (a, T)
  | InitGNC =>
      do TO <- odometryInitialization (pg_odom (a_pg a)) None;
      do '(T, ms) <- solveRobustPGO (x_mudiv x) (ls_solve ls TO) (localMeasurements (a_pg a)) init_gnc_params;
      do a <- foldM (fun a m =>
                if nltb (mweight m) w_tol
                then do '(a, _) <- ag_setMeasurementWeight a (meas_src m) (meas_dst m) n0 false; Ok a
                else Ok a) a ms;
      Ok (a, T)
  end.

(** PGOAgent.cpp:199-306 [initialize].  The failure flag of lines 264-272 is
    overwritten, so a trajectory of the wrong length is used all the same. *)
Definition ag_initialize (x : Ext) (ls : LocalSolvers) (a : Agent) (TInit : option (PoseArr S)) : res Agent :=
  if negb (state_eqb (a_state a) WAIT_FOR_DATA) then Ok a else
  let a := ag_endOptimizationLoop a in
  if (pg_n (a_pg a) =? 0)%N then Ok a else
  let given := match TInit with
               | Some T => if (pa_d T =? dimension a)%nat && (pa_n T =? num_poses a)%nat then Some T else None
               | None => None
               end in
  do '(a, T) <-
    match given with
    | Some T => Ok (a, T)
    | None =>
        do '(a, T) <- local_trajectory x ls a;
        check (pa_d T =? dimension a)%nat (Ok (a, T))
    end;
  do T <- to_first_frame x (dimension a) (num_poses a) T;
  let a := sa_TLocal a (Some T) in
  do X <- pa_new (relaxation_rank a) (dimension a) (num_poses a);
  let a := sa_X a X in
  let a := sa_state a WAIT_FOR_INITIALIZATION in
  do a <- (if (a_id a =? 0)%N || negb (p_multi (a_params a))
           then do I <- pose_identity (p_d (a_params a)); ag_initializeInGlobalFrame a I
           else Ok a);
  if p_async (a_params a) then ag_startOptimizationLoop a else Ok a.

(** ** Optimisation *)

(** PGOAgent.cpp:910-914 [updateGamma]; [2 * numRobots] is unsigned. *)
Definition next_gamma (N : N) (gamma : S) : S :=
  let n := nofZ (Z.of_N N) in
  (n1 + nsqrt (n1 + nofZ 4 * (n * n) * (gamma * gamma))) / nofZ (Z.of_N (u32 (2 * N))).
Definition ag_updateGamma (a : Agent) : res Agent :=
  check (p_accel (a_params a)) (check (is_init a) (
    Ok (sa_gamma a (next_gamma (p_numRobots (a_params a)) (a_gamma a))))).

(** PGOAgent.cpp:916-920 [updateAlpha] *)
Definition next_alpha (N : N) (gamma : S) : S := n1 / (gamma * nofZ (Z.of_N N)).
Definition ag_updateAlpha (a : Agent) : res Agent :=
  check (p_accel (a_params a)) (check (is_init a) (
    Ok (sa_alpha a (next_alpha (p_numRobots (a_params a)) (a_gamma a))))).

(** PGOAgent.cpp:922-928 [updateY] *)
Definition ag_updateY (x : Ext) (a : Agent) : res Agent :=
  check (p_accel (a_params a)) (check (is_init a) (
    require (same_size (pa_X (a_X a)) (pa_X (a_V a))) (
    let M := madd (mscal (n1 - a_alpha a) (pa_X (a_X a))) (mscal (a_alpha a) (pa_X (a_V a))) in
    do P <- manifold_project (x_svd_thin x) (relaxation_rank a) (dimension a) (num_poses a) M;
    do Y <- pa_setData (a_Y a) P;
    Ok (sa_Y a Y)))).

(** PGOAgent.cpp:930-936 [updateV] *)
Definition ag_updateV (x : Ext) (a : Agent) : res Agent :=
  check (p_accel (a_params a)) (check (is_init a) (
    require (same_size (pa_X (a_X a)) (pa_X (a_Y a)) && same_size (pa_X (a_V a)) (pa_X (a_X a))) (
    let M := madd (pa_X (a_V a)) (mscal (a_gamma a) (msub (pa_X (a_X a)) (pa_X (a_Y a)))) in
    do P <- manifold_project (x_svd_thin x) (relaxation_rank a) (dimension a) (num_poses a) M;
    do V <- pa_setData (a_V a) P;
    Ok (sa_V a V)))).

(** PGOAgent.cpp:938-995 [updateX] *)
Definition ag_updateX (opt : Optimizer) (a : Agent) (doOptimization acceleration : bool) : res (Agent * bool) :=
  if negb doOptimization then Ok (if acceleration then sa_X a (a_Y a) else a, true)
  else
    check (negb acceleration || p_accel (a_params a)) (
    check (is_init a) (
    let g := setNeighborPoses (a_pg a) (if acceleration then a_naux a else a_ndict a) in
    do '(g, built) <- constructDataMatrices g;
    let a := sa_pg a g in
    if negb built then Ok (a, false) else
    let X0 := pa_X (if acceleration then a_Y a else a_X a) in
    check (mrows X0 =? relaxation_rank a)%nat (
    check (mcols X0 =? (dimension a + 1) * num_poses a)%nat (
    let '(precon, X1) := opt g X0 in
    let a := sa_pg a (set_pg_precon (a_pg a) precon) in
    do X <- pa_setData (a_X a) X1;
    Ok (sa_X a X, true))))).

(** PGOAgent.cpp:880-885 [shouldRestart]; remainder by zero is undefined. *)
Definition ag_shouldRestart (a : Agent) : res bool :=
  if p_accel (a_params a)
  then require (negb (p_restart (a_params a) =? 0)%N)
         (Ok ((u32 (a_iter a + 1) mod p_restart (a_params a) =? 0)%N))
  else Ok false.

(** PGOAgent.cpp:887-897 [restartNesterovAcceleration] *)
Definition ag_restart (opt : Optimizer) (a : Agent) (doOptimization : bool) : res Agent :=
  if p_accel (a_params a) && is_init a then
    let a := sa_X a (a_XPrev a) in
    do '(a, _) <- ag_updateX opt a doOptimization false;
    let a := sa_V a (a_X a) in
    let a := sa_Y a (a_X a) in
    let a := sa_gamma a n0 in
    Ok (sa_alpha a n0)
  else Ok a.

(** PGOAgent.cpp:400-421: readiness after a local optimisation step.  With no
    loop closure the ratio is 0/0, a NaN, and the comparison is false. *)
Definition ratio_low (s : Statistics) (minratio : S) : bool :=
  if (total_lc s =? 0)%nat then false
  else nltb (nofZ (Z.of_nat (accept_lc s + reject_lc s)) / nofZ (Z.of_nat (total_lc s))) minratio.
Definition ready_of (a : Agent) (success : bool) (change : S) (s : Statistics) : bool :=
  let tol := if robust a && (a_wuc a =? 0)%Z then nofZ 5 else p_reltol (a_params a) in
  success && negb (nltb tol change) && negb (ratio_low s (p_minratio (a_params a))).
Definition ag_updateStatus (a : Agent) (success : bool) : res Agent :=
  do change <- maxTranslationDistance (a_X a) (a_XPrev a);
  do s <- statistics (a_pg a);
  Ok (sa_status a (mkStatus (a_id a) (a_state a) (a_inst a) (a_iter a) (ready_of a success change s) change)).

(** PGOAgent.cpp:376-432 [iterate] *)
Definition ag_iterate (x : Ext) (opt : Optimizer) (a : Agent) (doOptimization : bool) : res (Agent * bool) :=
  let a := sa_iter a (u32 (a_iter a + 1)) in
  do a <- (if robust a then do i <- int_incr (a_inner a); Ok (sa_inner a i) else Ok a);
  if is_init a then
    let a := sa_XPrev a (a_X a) in
    do '(a, success) <-
      (if p_accel (a_params a) then
         do a <- ag_updateGamma a;
         do a <- ag_updateAlpha a;
         do a <- ag_updateY x a;
         do '(a, success) <- ag_updateX opt a doOptimization true;
         do a <- ag_updateV x a;
         do again <- ag_shouldRestart a;
         do a <- (if again then ag_restart opt a doOptimization else Ok a);
         Ok (a, success)
       else ag_updateX opt a doOptimization false);
    do a <- (if doOptimization then ag_updateStatus a success else Ok a);
    let a := if doOptimization || p_accel (a_params a) then sa_pub a true else a in
    Ok (sa_pubasync a true, success)
  else Ok (a, true).

(** ** Export *)

(** PGOAgent.cpp:718-736 [getTrajectoryInLocalFrame].  [t0] is a reference into
    T (the non-const [translation] returns an [Eigen::Ref]), so each iteration
    reads the current first translation. *)
Definition ag_getTrajectoryInLocalFrame (x : Ext) (a : Agent) : res (option (Mx S)) :=
  if negb (is_init a) then Ok None else
  do T <- pa_new (p_d (a_params a)) (p_d (a_params a)) (num_poses a);
  do R0 <- pa_rot (a_X a) 0;
  require (can_mul (mtr R0) (pa_X (a_X a))) (
  do T <- pa_setData T (mmul (mtr R0) (pa_X (a_X a)));
  do _ <- pa_trans T 0;
  do T <- foldM (fun T i =>
      do Ri <- pa_rot T i;
      do T <- pa_set_rot T i (projectToRotationGroup (x_svd_full x) (x_det x) Ri);
      do ti <- pa_trans T i; do t0 <- pa_trans T 0;
      pa_set_trans T i (msub ti t0)) T (seq 0 (num_poses a));
  Ok (Some (pa_X T))).

(** The global anchor [Xa] is an r x (d+1) matrix: rotation and translation. *)
Definition anchor_rot (a : Agent) (Xa : Mx S) : Mx S := mblock Xa 0 0 (mrows Xa) (mcols Xa - 1).
Definition anchor_trans (a : Agent) (Xa : Mx S) : Mx S := mblock Xa 0 (mcols Xa - 1) (mrows Xa) 1.
Definition anchor_ok (a : Agent) (Xa : Mx S) : bool :=
  (mrows Xa =? relaxation_rank a)%nat && (mcols Xa =? dimension a + 1)%nat.

(** PGOAgent.cpp:747-767 [getTrajectoryInGlobalFrame] *)
Definition ag_getTrajectoryInGlobalFrame (x : Ext) (a : Agent) : res (option (PoseArr S)) :=
  match a_anchor a with
  | None => Ok None
  | Some Xa =>
      check (anchor_ok a Xa) (
      if negb (is_init a) then Ok None else
      do T <- pa_new (p_d (a_params a)) (p_d (a_params a)) (num_poses a);
      let Ya := anchor_rot a Xa in
      require (can_mul (mtr Ya) (pa_X (a_X a))) (
      do T <- pa_setData T (mmul (mtr Ya) (pa_X (a_X a)));
      let t0 := mmul (mtr Ya) (anchor_trans a Xa) in
      do T <- foldM (fun T i =>
          do Ri <- pa_rot T i;
          do T <- pa_set_rot T i (projectToRotationGroup (x_svd_full x) (x_det x) Ri);
          do ti <- pa_trans T i;
          require (same_size ti t0) (pa_set_trans T i (msub ti t0))) T (seq 0 (num_poses a));
      Ok (Some T)))
  end.

(** [Ti.col(d) -= t0] *)
Definition sub_col (d : nat) (Ti t0 : Mx S) : Mx S :=
  mkMx (mrows Ti) (mcols Ti) (fun i j => if Nat.eqb j d then Ti i j - t0 i 0%nat else Ti i j).

(** PGOAgent.cpp:769-787 [getPoseInGlobalFrame] *)
Definition ag_getPoseInGlobalFrame (a : Agent) (poseID : N) : res (option (Mx S)) :=
  match a_anchor a with
  | None => Ok None
  | Some Xa =>
      check (anchor_ok a Xa) (
      if negb (is_init a) then Ok None
      else if (pg_n (a_pg a) <=? poseID)%N then Ok None
      else
        let Ya := anchor_rot a Xa in
        let t0 := mmul (mtr Ya) (anchor_trans a Xa) in
        do Xi <- pa_pose (a_X a) (N.to_nat poseID);
        require (can_mul (mtr Ya) Xi) (
        let Ti := mmul (mtr Ya) Xi in
        require (p_d (a_params a) <? mcols Ti)%nat (
        let Ti := sub_col (p_d (a_params a)) Ti t0 in
        check (mrows Ti =? p_d (a_params a))%nat (check (mcols Ti =? p_d (a_params a) + 1)%nat (Ok (Some Ti))))))
  end.

(** PGOAgent.cpp:789-810 [getNeighborPoseInGlobalFrame] *)
Definition ag_getNeighborPoseInGlobalFrame (a : Agent) (k poseID : N) : res (option (Mx S)) :=
  match a_anchor a with
  | None => Ok None
  | Some Xa =>
      check (anchor_ok a Xa) (
      if negb (is_init a) then Ok None
      else match mfind pose_ltb (mkPoseID k poseID) (a_ndict a) with
           | None => Ok None
           | Some Xi =>
               let Ya := anchor_rot a Xa in
               let t0 := mmul (mtr Ya) (anchor_trans a Xa) in
               check (mrows Xi =? p_r (a_params a))%nat (check (mcols Xi =? p_d (a_params a) + 1)%nat (
               require (can_mul (mtr Ya) Xi) (
               do Ti <- pose_of_mx (mmul (mtr Ya) Xi);
               do t <- pa_trans Ti 0;
               require (same_size t t0) (
               do Ti <- pa_set_trans Ti 0 (msub t t0);
               Ok (Some (pa_X Ti))))))
           end)
  end.

(** PGOAgent.cpp:838-844 [setGlobalAnchor] *)
Definition ag_setGlobalAnchor (a : Agent) (M : Mx S) : res Agent :=
  check (mrows M =? relaxation_rank a)%nat (check (mcols M =? dimension a + 1)%nat (Ok (sa_anchor a (Some M)))).

(** PGOAgent.cpp:434-473 [reset] *)
Definition ag_reset (x : Ext) (a : Agent) : res Agent :=
  let a := ag_endOptimizationLoop a in
  do _ <- (if p_log (a_params a) then do _ <- ag_getTrajectoryInGlobalFrame x a; Ok tt else Ok tt);
  let a := sa_inst a (u32 (a_inst a + 1)) in
  let a := sa_iter a 0 in
  let a := sa_lwu a 0 in
  let a := sa_inner a 0%Z in
  let a := sa_wuc a 0%Z in
  let a := sa_trc a 0%Z in
  let a := sa_state a WAIT_FOR_DATA in
  let a := sa_status a (mkStatus (a_id a) (a_state a) (a_inst a) (a_iter a) false n0) in
  let a := sa_team a [] in
  let a := sa_active a (repeat false (N.to_nat (p_numRobots (a_params a)))) in
  let a := sa_anchor a None in
  let a := sa_TLocal a None in
  let a := sa_XInit a None in
  let a := sa_pub a false in
  let a := sa_pubasync a false in
  let a := sa_pg a (pg_reset (a_pg a)) in
  Ok (ag_clearNeighborPoses a).

(** ** Frame alignment *)

(** PGOAgent.cpp:515-548 [computeNeighborTransform] *)
Definition ag_computeNeighborTransform (x : Ext) (a : Agent) (m : Meas S) (nbr : Mx S) : res (PoseArr S) :=
  let d := p_d (a_params a) in
  do YL <- match a_YLift a with Some Y => Ok Y | None => Abort end;
  check (mrows nbr =? p_r (a_params a))%nat (check (mcols nbr =? d + 1)%nat (
  do dT <- pose_identity d;
  do dT <- pa_set_rot dT 0 (mR m);
  do dT <- pa_set_trans dT 0 (mt m);
  do W2F2 <- pose_identity d;
  require (can_mul (mtr YL) nbr) (
  do W2F2 <- pa_set_pose W2F2 0 (mmul (mtr YL) nbr);
  do T <- opt_value (a_TLocal a);
  do I <- pose_identity d;
  do '(F1F2, W1F1) <-
    (if (mr2 m =? a_id a)%N then
       do F <- pose_inverse (x_minv x) dT; do P <- pa_pose T (N.to_nat (u32 (mp2 m)));
       do W <- pa_setData I P; Ok (F, W)
     else
       do P <- pa_pose T (N.to_nat (u32 (mp1 m)));
       do W <- pa_setData I P; Ok (dT, W));
  do F2F1 <- pose_inverse (x_minv x) F1F2;
  do W2F1 <- pose_mul W2F2 F2F1;
  do F1W1 <- pose_inverse (x_minv x) W1F1;
  do W2W1 <- pose_mul W2F1 F1W1;
  do R <- pa_rot W2W1 0;
  do _ <- checkRotationMatrix R;
  Ok W2W1))).

(** PGOAgent.cpp:555-569 and 609-623: candidate alignments. *)
Definition ag_candidates (x : Ext) (a : Agent) (k : N) (dict : list (PoseID * Mx S)) : res (list (Mx S) * list (Mx S)) :=
  foldM (fun acc m =>
    let nid := mkPoseID k (if (mr1 m =? k)%N then u32 (mp1 m) else u32 (mp2 m)) in
    match mfind pose_ltb nid dict with
    | None => Ok acc
    | Some v =>
        do T <- ag_computeNeighborTransform x a m v;
        do R <- pa_rot T 0; do t <- pa_trans T 0;
        Ok (fst acc ++ [R], snd acc ++ [t])
    end) ([], []) (sharedLoopClosuresWithRobot (a_pg a) k).

(** PGOAgent.cpp:550-602 [computeRobustNeighborTransformTwoStage]; [None] is
    the result [false]. *)
Definition ag_twoStage (x : Ext) (a : Agent) (k : N) (dict : list (PoseID * Mx S)) : res (option (PoseArr S)) :=
  do '(RVec, tVec) <- ag_candidates x a k dict;
  match RVec with
  | [] => Ok None
  | _ =>
      do '(ROpt, inliers) <- robustSingleRotationAveraging (x_svd_full x) (x_det x) (x_mudiv x)
                               RVec (ones (length RVec)) (x_maxrot x);
      if (N.of_nat (length inliers) <? p_mininl (a_params a))%N then Ok None else
      do tIn <- foldM (fun l i => do t <- vec_get tVec i; Ok (l ++ [t])) [] inliers;
      do tOpt <- singleTranslationAveraging tIn [];
      do T <- pose_identity (dimension a);
      do T <- pa_set_rot T 0 ROpt;
      do T <- pa_set_trans T 0 tOpt;
      Ok (Some T)
  end.

(** PGOAgent.h:353-372: team status *)
Definition ag_getNeighborStatus (a : Agent) (k : N) : res Status :=
  match mfind N.ltb k (a_team a) with Some s => Ok s | None => Abort end.
Definition ag_setNeighborStatus (a : Agent) (s : Status) : Agent := sa_team a (mset N.ltb (st_id s) s (a_team a)).
(** PGOAgent.h:342-348 [getStatus] *)
Definition ag_getStatus (a : Agent) : Agent :=
  sa_status a (mkStatus (a_id a) (a_state a) (a_inst a) (a_iter a) (st_ready (a_status a)) (st_change (a_status a))).

(** The loop of PGOAgent.cpp:668-677 and 693-701: keep required poses. *)
Definition store_poses (a : Agent) (k : N) (dict cache : list (PoseID * Mx S)) : res (list (PoseID * Mx S)) :=
  foldM (fun c kv =>
    check (robot_id (fst kv) =? k)%N (
    check (mrows (snd kv) =? p_r (a_params a))%nat (
    check (mcols (snd kv) =? p_d (a_params a) + 1)%nat (
      if requireNeighborPose (a_pg a) (fst kv) then Ok (mset pose_ltb (fst kv) (snd kv) c) else Ok c)))) cache dict.

(** Lines 651-657 and 682-688: the guards of both functions. *)
Definition nbr_ready (a : Agent) (k : N) : bool :=
  match a_YLift a, mfind N.ltb k (a_team a) with
  | Some _, Some s => state_eqb (st_state s) INITIALIZED
  | _, _ => false
  end.

(** PGOAgent.cpp:650-678 [updateNeighborPoses] *)
Definition ag_updateNeighborPoses (x : Ext) (a : Agent) (k : N) (dict : list (PoseID * Mx S)) : res Agent :=
  check (negb (k =? a_id a)%N) (
  if negb (nbr_ready a k) then Ok a else
  do a <- (if state_eqb (a_state a) WAIT_FOR_INITIALIZATION then
             do o <- ag_twoStage x a k dict;
             match o with Some T => ag_initializeInGlobalFrame a T | None => Ok a end
           else Ok a);
  if negb (is_init a) then Ok a else
  do c <- store_poses a k dict (a_ndict a);
  Ok (sa_ndict a c)).

(** PGOAgent.cpp:680-702 [updateAuxNeighborPoses] *)
Definition ag_updateAuxNeighborPoses (a : Agent) (k : N) (dict : list (PoseID * Mx S)) : res Agent :=
  check (p_accel (a_params a)) (
  check (negb (k =? a_id a)%N) (
  if negb (nbr_ready a k) then Ok a else
  if negb (is_init a) then Ok a else
  do c <- store_poses a k dict (a_naux a);
  Ok (sa_naux a c))).

(** ** Team decisions *)

(** PGOAgent.cpp:1167-1171 [isRobotActive] *)
Definition ag_isRobotActive (a : Agent) (k : N) : res bool :=
  if (p_numRobots (a_params a) <=? k)%N then Ok false else vec_get (a_active a) (N.to_nat k).

(** PGOAgent.cpp:1173-1184 [setRobotActive] *)
Definition ag_setRobotActive (a : Agent) (k : N) (active : bool) : res Agent :=
  if (p_numRobots (a_params a) <=? k)%N then Ok a else
  require (N.to_nat k <? length (a_active a))%nat (
  let a := sa_active a (list_update (a_active a) (N.to_nat k) (fun _ => active)) in
  if hasNeighbor (a_pg a) k then do g <- setNeighborActive (a_pg a) k active; Ok (sa_pg a g) else Ok a).

(** PGOAgent.cpp:1186-1194 [numActiveRobots] *)
Definition ag_numActiveRobots (a : Agent) : res nat :=
  foldM (fun n k => do b <- ag_isRobotActive a k; Ok (if b then Datatypes.S n else n)) O
    (map N.of_nat (seq 0 (N.to_nat (p_numRobots (a_params a))))).

(** The loops of PGOAgent.cpp:860-876 and 1018-1042: [ok] is the condition on
    the status of an active robot; the loop stops at the first failure. *)
Fixpoint all_active_ok (a : Agent) (ok : Status -> bool) (ks : list N) : res bool :=
  match ks with
  | [] => Ok true
  | k :: ks' =>
      do act <- ag_isRobotActive a k;
      if negb act then all_active_ok a ok ks'
      else match mfind N.ltb k (a_team a) with
           | None => Ok false
           | Some s => check (st_id s =? k)%N (if ok s then all_active_ok a ok ks' else Ok false)
           end
  end.
Definition robot_ids (a : Agent) : list N := map N.of_nat (seq 0 (N.to_nat (p_numRobots (a_params a)))).

(** PGOAgent.cpp:846-878 [shouldTerminate] *)
Definition ag_shouldTerminate (a : Agent) : res bool :=
  if (p_maxit (a_params a) <=? a_iter a)%N then Ok true
  else if robust a && (a_wuc a <? p_nwu (a_params a))%Z then Ok false
  else all_active_ok a (fun s => state_eqb (st_state s) INITIALIZED && st_ready s) (robot_ids a).

(** PGOAgent.cpp:997-1046 [shouldUpdateMeasurementWeights] *)
Definition ag_shouldUpdateMeasurementWeights (a : Agent) : res bool :=
  if negb (robust a) then Ok false
  else if (p_nwu (a_params a) <=? a_wuc a)%Z then Ok false
  else if (p_innerIters (a_params a) <=? a_inner a)%Z then Ok true
  else all_active_ok a (fun s => negb (st_iter s <? a_lwu a)%N && state_eqb (st_state s) INITIALIZED && st_ready s)
         (robot_ids a).

(** PGOAgent.cpp:1062-1102 [computeMeasurementResidual]; [None] is [false]. *)
Definition lp_rot (M : Mx S) : Mx S := mblock M 0 0 (mrows M) (mcols M - 1).
Definition lp_trans (M : Mx S) : Mx S := mblock M 0 (mcols M - 1) (mrows M) 1.
Definition ag_residual (a : Agent) (m : Meas S) : res (option S) :=
  if negb (is_init a) then Ok None else
  let own p := do R <- pa_rot (a_X a) (N.to_nat (u32 p)); do t <- pa_trans (a_X a) (N.to_nat (u32 p)); Ok (R, t) in
  let done '(R1, t1) '(R2, t2) := do e <- computeMeasurementError m R1 t1 R2 t2; Ok (Some (nsqrt e)) in
  if (mr1 m =? mr2 m)%N then do A <- own (mp1 m); do B <- own (mp2 m); done A B
  else if (mr1 m =? a_id a)%N then
    do A <- own (mp1 m);
    match mfind pose_ltb (pose_of (mr2 m) (mp2 m)) (a_ndict a) with
    | None => Ok None
    | Some v => done A (lp_rot v, lp_trans v)
    end
  else
    do B <- own (mp2 m);
    match mfind pose_ltb (pose_of (mr1 m) (mp1 m)) (a_ndict a) with
    | None => Ok None
    | Some v => done (lp_rot v, lp_trans v) B
    end.

(** The loop of PGOAgent.cpp:1111-1118. *)
Definition reweight_one (a : Agent) (p : mref) : res Agent :=
  match deref (a_pg a) p with
  | None => UB
  | Some m =>
      if mfixed m then Ok a
      else do o <- ag_residual a m;
           match o with
           | Some r => Ok (sa_pg a (modify (a_pg a) p (set_mweight (weight (a_rc a) r))))
           | None => Ok a
           end
  end.

(** PGOAgent.cpp:1119-1126: counters, data matrices, cost, team and own status;
    [c] is the incremented weight update count. *)
Definition weights_mid (a : Agent) (c : Z) : Agent :=
  let a := sa_wuc a c in
  let a := sa_lwu a (a_iter a) in
  let a := sa_inner a 0%Z in
  let a := sa_pg a (clearDataMatrices (a_pg a)) in
  let a := sa_rc a (rc_update (a_rc a)) in
  let a := sa_team a [] in
  let s := a_status a in
  sa_status a (mkStatus (st_id s) (st_state s) (st_inst s) (st_iter s) false n0).

(** PGOAgent.cpp:1131-1136: start again from the initial guess. *)
Definition weights_reset (a : Agent) : res Agent :=
  if (a_trc a <? p_nreset (a_params a))%Z then
    do a <- ag_setXToInitialGuess (sa_trc a (a_trc a + 1)%Z); Ok (ag_clearNeighborPoses a)
  else Ok a.

(** PGOAgent.cpp:1104-1142 [updateMeasurementWeights] *)
Definition ag_updateMeasurementWeights (a : Agent) : res Agent :=
  if negb (is_init a) then Ok a else
  do ps <- activeLoopClosures (a_pg a);
  do a <- foldM reweight_one a ps;
  do c <- int_incr (a_wuc a);
  do a <- weights_reset (weights_mid a c);
  if p_accel (a_params a) then ag_initializeAcceleration a else Ok a.

(** PGOAgent.cpp:1157-1165 [isRobotInitialized] *)
Definition ag_isRobotInitialized (a : Agent) (k : N) : bool :=
  if (k =? a_id a)%N then is_init a
  else match mfind N.ltb k (a_team a) with Some s => state_eqb (st_state s) INITIALIZED | None => false end.

(** PGOAgent.cpp:1196-1205, 1207-1212 [anchorFirstPose] *)
Definition ag_anchorFirstPose (a : Agent) : res (Agent * bool) :=
  if (0 <? num_poses a)%nat then
    do P <- pa_pose (a_X a) 0;
    check (has_size P (relaxation_rank a) (dimension a + 1)) (
    do g <- setPrior (a_pg a) 0 P; Ok (sa_pg a g, true))
  else Ok (a, false).
Definition ag_anchorFirstPoseWith (a : Agent) (prior : Mx S) : res (Agent * bool) :=
  check (mcols prior =? dimension a + 1)%nat (check (mrows prior =? relaxation_rank a)%nat (
    do g <- setPrior (a_pg a) 0 prior; Ok (sa_pg a g, true))).

(** ** Histories: calls of the public and protected interface as data.
    [AThread] is one pass of the optimisation thread (PGOAgent.cpp:486-499),
    which exists only while [a_thread]. *)
Inductive aop :=
| ASetX (X : Mx S) | ASetXInit | AAdd (m : Meas S) | ASetMeas (od priv sh : list (Meas S))
| AInit (ls : LocalSolvers) (T : option (PoseArr S)) | AInitGlobal (T : PoseArr S)
| AIterate (opt : Optimizer) (b : bool) | AThread (opt : Optimizer) | AReset | AStart | AEnd
| ARestart (opt : Optimizer) (b : bool)
| AUpdNbr (k : N) (dict : list (PoseID * Mx S)) | AUpdAux (k : N) (dict : list (PoseID * Mx S))
| AClearNbr | AClearActive | ASetLift (M : Mx S) | ASetAnchor (M : Mx S)
| AStatus (s : Status) | AGetStatus | ASetActive (k : N) (b : bool)
| AUpdWeights | ASetWeight (src dst : PoseID) (w : S) (fixed : bool) | AInitRobust
| AAnchorFirst | AAnchorWith (P : Mx S).

Definition ag_step (x : Ext) (a : Agent) (o : aop) : res Agent :=
  match o with
  | ASetX X => ag_setX a X
  | ASetXInit => ag_setXToInitialGuess a
  | AAdd m => ag_addMeasurement a m
  | ASetMeas od priv sh => ag_setMeasurements a od priv sh
  | AInit ls T => ag_initialize x ls a T
  | AInitGlobal T => ag_initializeInGlobalFrame a T
  | AIterate opt b => do '(a, _) <- ag_iterate x opt a b; Ok a
  | AThread opt => if a_thread a then do '(a, _) <- ag_iterate x opt a true; Ok a else Ok a
  | AReset => ag_reset x a
  | AStart => ag_startOptimizationLoop a
  | AEnd => Ok (ag_endOptimizationLoop a)
  | ARestart opt b => ag_restart opt a b
  | AUpdNbr k dict => ag_updateNeighborPoses x a k dict
  | AUpdAux k dict => ag_updateAuxNeighborPoses a k dict
  | AClearNbr => Ok (ag_clearNeighborPoses a)
  | AClearActive => ag_clearActiveNeighborPoses a
  | ASetLift M => ag_setLiftingMatrix a M
  | ASetAnchor M => ag_setGlobalAnchor a M
  | AStatus s => Ok (ag_setNeighborStatus a s)
  | AGetStatus => Ok (ag_getStatus a)
  | ASetActive k b => ag_setRobotActive a k b
  | AUpdWeights => ag_updateMeasurementWeights a
  | ASetWeight src dst w fixed => do '(a, _) <- ag_setMeasurementWeight a src dst w fixed; Ok a
  | AInitRobust => ag_initializeRobustOptimization a
  | AAnchorFirst => do '(a, _) <- ag_anchorFirstPose a; Ok a
  | AAnchorWith P => do '(a, _) <- ag_anchorFirstPoseWith a P; Ok a
  end.

Definition ag_run (x : Ext) (a : Agent) (os : list aop) : res Agent := foldM (ag_step x) a os.

End Agent.
Arguments AgentParams : clear implicits.
Arguments Status : clear implicits.
Arguments Ext : clear implicits.
Arguments LocalSolvers : clear implicits.
Arguments Optimizer : clear implicits.
Arguments Agent : clear implicits.
Arguments aop : clear implicits.
