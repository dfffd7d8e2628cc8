(** The multi-robot example: initialisation and optimisation loop.
    Source: examples/MultiRobotExample.cpp.  The dataset is the list returned by
    [read_g2o_file] (ModelIO.v); console output is the list of printed lines. *)
From Coq Require Import List NArith ZArith Bool.
From Verif Require Import Base SMap Num ModelTypes ModelPoseGraph ModelProblem ModelRobust ModelPoses ModelSolver ModelOptimizer ModelAgent ModelExample.
Import ListNotations.
Local Open Scope N_scope.
Local Open Scope res_scope.

Section Run.
Context {S : Type} `{Num S}.
(** External linear algebra, solvers of [initialize], ROPTLIB (only its tangent
    projection is used here), chordal initialisation (ModelInit.v), and the local
    optimiser at each iteration. *)
Context (x : Ext S) (ls : LocalSolvers S) {St : Type} (L : Lib S St) (chordal : list (Meas S) -> res (PoseArr S)) (opt : N -> Optimizer S).

(** Lines 126-130 and PGOAgent.h:112-151, the default parameters. *)
Definition ex_params (d r : nat) (num_robots : N) (acceleration : bool) : AgentParams S :=
  mkAP d r num_robots false InitOdometry true acceleration 30 (default_robust L2) 10 0 30 (nlit 8 10) 2 500 (nlit 5 1000) false.

Definition at_ (l : list (Agent S)) (k : N) : res (Agent S) :=
  match nth_error l (N.to_nat k) with Some a => Ok a | None => UB end.
Definition put (l : list (Agent S)) (k : N) (a : Agent S) : list (Agent S) := list_update l (N.to_nat k) (fun _ => a).

(** Lines 126-146: one robot.  [getLiftingMatrix] (PGOAgent.cpp:830-836) leaves
    the matrix empty if there is none. *)
Definition ex_robot (p : AgentParams S) (st : Split S) (agents : list (Agent S)) (robot : N) : res (list (Agent S)) :=
  do a <- newAgent x robot p;
  do a <- (if 0 <? robot then
             do a0 <- at_ agents 0;
             ag_setLiftingMatrix a (match a_YLift a0 with Some M => M | None => mzero 0 0 end)
           else Ok a);
  let k := N.to_nat robot in
  do a <- ag_setMeasurements a (nth k (sp_odom st) []) (nth k (sp_priv st) []) (nth k (sp_shared st) []);
  do a <- ag_initialize x ls a None;
  Ok (agents ++ [a]).
Definition ex_team (p : AgentParams S) (num_robots : N) (st : Split S) : res (list (Agent S)) :=
  foldM (ex_robot p st) [] (range 0 num_robots).

(** Lines 153-160: start from the lifted chordal initialisation. *)
Definition ex_start (d r : nat) (num_poses num_robots : N) (X : Mx S) (agents : list (Agent S)) : res (list (Agent S)) :=
  foldM (fun ags robot => do a <- at_ ags robot; do a <- ag_setX a (robot_block d r num_poses num_robots robot X); Ok (put ags robot a))
    agents (range 0 num_robots).

(** Lines 174-180; the two assertions are checks. *)
Definition ex_others (iter sel : N) (agents : list (Agent S)) : res (list (Agent S)) :=
  mapM (fun a => check (a_inst a =? 0) (check (a_iter a =? iter) (
    if negb (a_id a =? sel) then do '(a, _) <- ag_iterate x (opt iter) a false; Ok a else Ok a))) agents.

(** Lines 182-191 and 193-204: the selected robot asks all others. *)
Definition ex_ask (get : Agent S -> res (option (list (PoseID * Mx S)))) (upd : Agent S -> N -> list (PoseID * Mx S) -> res (Agent S))
    (sel : N) (agents : list (Agent S)) : res (list (Agent S)) :=
  foldM (fun ags k =>
    do a <- at_ ags k;
    if a_id a =? sel then Ok ags else
    do o <- get a;
    match o with
    | None => Ok ags
    | Some D =>
        let a := ag_getStatus a in
        let ags := put ags k a in
        do s <- at_ ags sel;
        do s <- upd (ag_setNeighborStatus s (a_status a)) (a_id a) D;
        Ok (put ags sel s)
    end) agents (map N.of_nat (seq 0 (length agents))).

(** One printed line: iteration, robot, cost, gradient norm. *)
Record Line := mkLine { ln_iter : N; ln_robot : N; ln_cost : S; ln_gradnorm : S }.
(** The variables of the loop: agents, selectedRobot, Xopt, the pose graph of
    problemCentral (it caches its matrices). *)
Record Loop := mkLoop { lp_agents : list (Agent S); lp_sel : N; lp_X : Mx S; lp_central : PoseGraph S }.

(** Lines 209-219 *)
Definition team_X (agents : list (Agent S)) (k : N) : option (Mx S) :=
  match nth_error agents (N.to_nat k) with Some a => Some (pa_X (a_X a)) | None => None end.

(** Lines 170-255, one iteration; [true]: leave the loop (lines 228-231). *)
Definition ex_round (d r : nat) (num_poses num_robots : N) (acceleration : bool) (iter : N) (lp : Loop) : res (Loop * Line * bool) :=
  let sel := lp_sel lp in
  do ags <- ex_others iter sel (lp_agents lp);
  do ags <- ex_ask ag_getSharedPoseDict (ag_updateNeighborPoses x) sel ags;
  do ags <- (if acceleration then ex_ask ag_getAuxSharedPoseDict ag_updateAuxNeighborPoses sel ags else Ok ags);
  do s <- at_ ags sel;
  do '(s, _) <- ag_iterate x (opt iter) s true;
  let ags := put ags sel s in
  do X <- form_central d r num_poses num_robots (team_X ags) (lp_X lp);
  do '(g, RG) <- qp_riegrad L (lp_central lp) X;
  let gn := mnorm RG in
  do '(g, v) <- qp_f g X;
  let line := mkLine iter (a_id s) (nmul (nofZ 2) v) gn in
  if nltb gn (nlit 1 10) then Ok (mkLoop ags sel X g, line, true) else
  let norms := map (fun k => mnorm (robot_block d r num_poses num_robots k RG)) (range 0 num_robots) in
  let next := select_next (pg_nbrs (a_pg s)) (a_id s) norms in
  do a0 <- at_ ags 0;
  do o <- ag_getSharedPose a0 0;
  let M := match o with Some M => M | None => mzero 0 0 end in
  do ags <- mapM (fun a => ag_setGlobalAnchor a M) ags;
  Ok (mkLoop ags next X g, line, false).

(** Lines 170-255 *)
Fixpoint ex_loop (d r : nat) (num_poses num_robots : N) (acceleration : bool) (fuel : nat) (iter : N) (lp : Loop) (out : list Line) : res (Loop * list Line) :=
  match fuel with
  | O => Ok (lp, out)
  | Datatypes.S fuel' =>
      do '(lp, line, stop) <- ex_round d r num_poses num_robots acceleration iter lp;
      if stop : bool then Ok (lp, out ++ [line])
      else ex_loop d r num_poses num_robots acceleration fuel' (iter + 1) lp (out ++ [line])
  end.

(** Lines 52-259: what is printed; [None]: more robots than poses.  r, the
    acceleration flag and the number of iterations are constants of the program
    (5, true, 1000).  [X0]: the uninitialised Xopt of line 167. *)
Definition example (r : nat) (acceleration : bool) (iters : nat) (X0 : Mx S) (num_robots num_poses : N) (dataset : list (Meas S)) : res (option (list (Agent S) * list Line)) :=
  let d := match dataset with [] => O | m :: _ => mrows (mt m) end in
  do g <- newPoseGraph 0 r d;
  do g <- setMeasurements g dataset;
  do o <- split_dataset num_poses num_robots dataset;
  match o with
  | None => Ok None
  | Some st =>
      do ags <- ex_team (ex_params d r num_robots acceleration) num_robots st;
      do T <- chordal dataset;
      require (can_mul (x_fixedY x d r) (pa_X T)) (
      do ags <- ex_start d r num_poses num_robots (mmul (x_fixedY x d r) (pa_X T)) ags;
      do '(lp, out) <- ex_loop d r num_poses num_robots acceleration iters 0 (mkLoop ags 0 X0 g) [];
      do ags <- mapM (ag_reset x) (lp_agents lp);
      Ok (Some (ags, out)))
  end.
End Run.
Arguments Line : clear implicits.
Arguments Loop : clear implicits.
