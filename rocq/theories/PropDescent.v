(** C65: the cost of the whole dataset along an execution of a team. *)
From Coq Require Import List NArith ZArith Bool Arith Reals.
From Verif Require Import Base SMap Num RSum ModelTypes ModelPoseGraph ModelRobust ModelPoses ModelSolver ModelAgent ModelExample ModelTeam SpecPoseGraph SpecPGHist SpecCost SpecAgent SpecRun SpecTeam SpecDescent
  ProofsFramesEx ProofsDescent ProofsDescent2 ProofsDescentEx.
Import ListNotations.
Local Open Scope res_scope.

(** Whatever the order of the robots and the messages: if every robot optimises only when its cached neighbour
    poses are the present ones, the cost of all robots' measurements together never rises. *)
Theorem C65_descends : forall x r d m P M Pri os0 t0 os t, treach x P m os0 t0 -> (forall k a, robot t0 k a -> member r d M Pri k (P k) a) ->
  Forall (top_ok P) os -> careful r d x t0 os -> tm_run x t0 os = Ok t ->
  (team_cost r d M Pri (range 0 m) t <= team_cost r d M Pri (range 0 m) t0)%R.
Proof. exact team_descends. Qed.

(** Two robots at the ends of a row of three step: the cost falls from 10 to 9/2. *)
Example C65_descends_case : exists os t0 t, treach rx dP 3 os t0 /\ (forall k a, robot t0 k a -> member 3 2 d_data (fun _ => []) k (dP k) a) /\ apart t0 [0; 2]%N /\ (forall j, uptodate 3 2 t0 j) /\
  careful 3 2 rx t0 (steps d_opt [0; 2]%N) /\ tm_run rx t0 (steps d_opt [0; 2]%N) = Ok t /\ team_cost 3 2 d_data (fun _ => []) (range 0 3) t0 = 10%R /\ team_cost 3 2 d_data (fun _ => []) (range 0 3) t = (9 / 2)%R.
Proof. exact d_descends. Qed.

(** Robots without common edges may step at the same time: they need not hear of each other's steps. *)
Theorem C65_parallel : forall x r d m P M Pri os0 t0 os t opt js t', treach x P m os0 t0 -> (forall k a, robot t0 k a -> member r d M Pri k (P k) a) ->
  Forall (top_ok P) os -> careful r d x t0 os -> tm_run x t0 os = Ok t ->
  NoDup js -> apart t js -> (forall j, In j js -> opt_sized (opt j) /\ descending (opt j) /\ uptodate r d t j) -> tm_run x t (steps opt js) = Ok t' ->
  (team_cost r d M Pri (range 0 m) t' <= team_cost r d M Pri (range 0 m) t)%R.
Proof. exact team_parallel. Qed.

(** Robots with a common edge may not: each of the two steps lowers the stepping robot's own cost, but
    together they raise the team's from 10 to 25/2. *)
Theorem C65_parallel_refuted : exists os t0 t, treach rx dP 3 os t0 /\ (forall k a, robot t0 k a -> member 3 2 d_data (fun _ => []) k (dP k) a) /\ (forall j, uptodate 3 2 t0 j) /\
  (forall k, opt_sized (d_opt k) /\ descending (d_opt k)) /\ tm_run rx t0 (steps d_opt [0; 1]%N) = Ok t /\
  team_cost 3 2 d_data (fun _ => []) (range 0 3) t0 = 10%R /\ team_cost 3 2 d_data (fun _ => []) (range 0 3) t = (25 / 2)%R.
Proof. exact d_raises. Qed.

(** Collecting the statuses and public poses of one's neighbours before each step is enough, and with the
    plain cost nothing aborts on the way; the robots may be taken in any order. *)
Theorem C65_rounds : forall x r d m P M Pri os0 t0 nb opt js, treach x P m os0 t0 -> (forall k a, robot t0 k a -> member r d M Pri k (P k) a /\ a_YLift a <> None) ->
  (forall k, costType (p_robust (P k)) = L2) ->
  (forall j, opt_sized (opt j) /\ descending (opt j)) -> (forall j k, In k (nb j) -> k <> j /\ (k < m)%N) ->
  (forall j a e, robot t0 j a -> In e (pg_shared (a_pg a)) -> In (robot_id (other_pose j e)) (nb j)) -> (forall j, In j js -> (j < m)%N) ->
  exists t, tm_run x t0 (rounds nb opt js (length (tm_status t0)) (length (tm_poses t0))) = Ok t /\
    (team_cost r d M Pri (range 0 m) t <= team_cost r d M Pri (range 0 m) t0)%R.
Proof. exact team_rounds. Qed.

Example C65_rounds_case : exists t0, treach rx dP 3 d_setup t0 /\ (forall k a, robot t0 k a -> member 3 2 d_data (fun _ => []) k (dP k) a /\ a_YLift a <> None) /\
  (forall k, costType (p_robust (dP k)) = L2) /\ (forall j, opt_sized (d_opt j) /\ descending (d_opt j)) /\ (forall j k, In k (d_nb j) -> k <> j /\ (k < 3)%N) /\
  (forall j a e, robot t0 j a -> In e (pg_shared (a_pg a)) -> In (robot_id (other_pose j e)) (d_nb j)).
Proof. exact d_rounds. Qed.

Print Assumptions C65_descends.
Print Assumptions C65_parallel.
Print Assumptions C65_parallel_refuted.
Print Assumptions C65_rounds.
