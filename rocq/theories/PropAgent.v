(** Properties C25, C32-C37, C39, C42 and C50: the agent.  All hold for every
    scalar type, every behaviour of the external linear algebra [x], every
    optimiser and every sequence of calls that has not aborted ([areach]). *)
From Coq Require Import List NArith ZArith Bool QArith.
From Verif Require Import Base SMap Num ModelTypes ModelPoseGraph ModelRobust ModelPoses ModelSolver ModelAgent
  SpecPoseGraph SpecAgent ProofsAgent ProofsAgent4 ProofsAgent5 ProofsAgent6 ProofsAgentEx.
Import ListNotations.
Local Open Scope res_scope.

(** ** C32: life cycle *)
Theorem C32_step : forall S (HS : Num S) (x : Ext S) id p os a o a',
  areach x id p os a -> aop_ok o -> ag_step x a o = Ok a' ->
  next_state a o (a_state a') /\
  (o <> AReset -> (rank (a_state a) <= rank (a_state a'))%nat) /\
  (feeds o = false \/ a_state a <> WAIT_FOR_DATA -> stored a' = stored a /\ num_poses a' = num_poses a).
Proof. exact @c32_step. Qed.
Print Assumptions C32_step.

Theorem C32_counters : forall S (HS : Num S) (x : Ext S) id p os a, areach x id p os a ->
  let es := history x id p os in
  a_id a = id /\ a_params a = p /\
  a_inst a = u32 (SpecAgent.count is_reset es) /\ a_iter a = u32 (SpecAgent.count is_iter (since is_reset es)).
Proof. exact @c32_counters. Qed.
Print Assumptions C32_counters.

Example C32_example : exists a, areach zx 1 (zp false) (join ++ [AIterate zopt true; AIterate zopt false; AReset; AAdd (zm 1 2 1 3 1 0 true 1); AIterate zopt true]) a /\
  (a_state a = WAIT_FOR_DATA /\ a_inst a = 1%N /\ a_iter a = 1%N /\ num_poses a = 4%nat).
Proof. exact ex_life. Qed.

(** ** C33: getters *)
Theorem C33_getters : forall S (HS : Num S) (x : Ext S) id p os a, areach x id p os a -> a_state a <> WAIT_FOR_DATA ->
  (0 < num_poses a)%nat /\ arr (p_r p) (p_d p) (num_poses a) (a_X a) /\ ag_getX a = Ok (pa_X (a_X a)) /\
  (a_state a = INITIALIZED ->
   (forall i, (N.to_nat i < num_poses a)%nat -> exists v, ag_getSharedPose a i = Ok (Some v) /\ is_block (p_r p) (p_d p) (pa_X (a_X a)) (N.to_nat i) v) /\
   (forall i, (num_poses a <= N.to_nat i)%nat -> ag_getSharedPose a i = Ok None) /\
   (exists D, ag_getSharedPoseDict a = Ok (Some D) /\ dict_spec a (pa_X (a_X a)) (fun _ => True) D) /\
   (forall k, exists D, ag_getSharedPoseDictWithNeighbor a k = Ok (Some D) /\
      dict_spec a (pa_X (a_X a)) (fun m => mr1 m = k \/ mr2 m = k) D)).
Proof. exact @c33_estimate. Qed.
Print Assumptions C33_getters.

Theorem C33_aux_getters : forall S (HS : Num S) (x : Ext S) id p os a, areach x id p os a -> a_state a = INITIALIZED -> p_accel p = true ->
  (forall i, (N.to_nat i < num_poses a)%nat -> exists v, ag_getAuxSharedPose a i = Ok (Some v) /\ is_block (p_r p) (p_d p) (pa_X (a_Y a)) (N.to_nat i) v) /\
  (exists D, ag_getAuxSharedPoseDict a = Ok (Some D) /\ dict_spec a (pa_X (a_Y a)) (fun _ => True) D) /\
  (forall k, exists D, ag_getAuxSharedPoseDictWithNeighbor a k = Ok (Some D) /\
      dict_spec a (pa_X (a_Y a)) (fun m => mr1 m = k \/ mr2 m = k) D).
Proof. exact @c33_aux. Qed.
Print Assumptions C33_aux_getters.

Example C33_example : forall acc, exists a, areach zx 1 (zp acc) join a /\
  (a_state a = INITIALIZED /\ num_poses a = 3%nat /\ map fst (a_ndict a) = [mkPoseID 0 5; mkPoseID 0 6] /\
   map (fun e => (fst e, dump (snd e))) (match ag_getSharedPoseDict a with Ok (Some D) => D | _ => [] end) =
     [(mkPoseID 1 0, [[1; 0; 3]; [0; 1; 0]; [0; 0; 0]]%Q); (mkPoseID 1 2, [[1; 0; 5]; [0; 1; 0]; [0; 0; 0]]%Q)]).
Proof. exact ex_joined. Qed.

(** The one auxiliary getter without the acceleration check aborts on a live
    agent that does not accelerate. *)
Theorem C33_aux_with_neighbor_refuted : exists a, areach zx 1 (zp false) join a /\
  (a_state a = INITIALIZED /\ ag_getAuxSharedPoseDictWithNeighbor a 0 = Abort).
Proof. exact aux_dict_aborts. Qed.
Print Assumptions C33_aux_with_neighbor_refuted.

(** ** C34: termination *)
Theorem C34_terminate : forall S (HS : Num S) (x : Ext S) id p os a, areach x id p os a ->
  let es := history x id p os in
  exists b, ag_shouldTerminate a = Ok b /\
  (b = true <-> (p_maxit p <= u32 (SpecAgent.count is_iter (since is_reset es)))%N \/
    ((costType (p_robust p) = L2 \/ (p_nwu p <= Z.of_N (SpecAgent.count is_reweight (since is_reset es)))%Z) /\
     forall k, (k < p_numRobots p)%N -> active_now k es = true ->
       exists s, last_some (status_of k) (since is_reweight (since is_reset es)) = Some s /\
         st_state s = INITIALIZED /\ st_ready s = true)).
Proof. exact @term_hist. Qed.
Print Assumptions C34_terminate.

(** Right after a reset no status counts and no robot is active, so the team
    condition holds vacuously. *)
Theorem C34_after_reset : forall S (HS : Num S) (x : Ext S) id p os a a', areach x id p os a -> ag_reset x a = Ok a' ->
  ag_shouldTerminate a' = Ok (orb (p_maxit p =? 0)%N (orb (cost_type_eqb (costType (p_robust p)) L2) (p_nwu p <=? 0)%Z)).
Proof. exact @c34_after_reset. Qed.
Print Assumptions C34_after_reset.

Example C34_example : exists a, areach zx 1 (zp false) (join ++ [AUpdWeights; st0 0 0 true; st0 1 0 false; AIterate zopt true; st0 1 1 true]) a /\
  (ag_shouldTerminate a = Ok true /\ (a_iter a < p_maxit (a_params a))%N /\ map fst (a_team a) = [0; 1]%N).
Proof. exact ex_team. Qed.
Example C34_example_not_yet : exists a, areach zx 1 (zp false) (join ++ [AUpdWeights; st0 0 0 true]) a /\
  (ag_shouldTerminate a = Ok false /\ map fst (a_team a) = [0]%N).
Proof. exact ex_wait. Qed.

(** ** C35: weight update decision *)
Theorem C35_update_weights : forall S (HS : Num S) (x : Ext S) id p os a, areach x id p os a ->
  let es := history x id p os in
  exists b, ag_shouldUpdateMeasurementWeights a = Ok b /\
  (b = true <-> costType (p_robust p) <> L2 /\ (Z.of_N (SpecAgent.count is_reweight (since is_reset es)) < p_nwu p)%Z /\
    ((p_innerIters p <= Z.of_N (SpecAgent.count is_iter (since is_reweight (since is_reset es))))%Z \/
     forall k, (k < p_numRobots p)%N -> active_now k es = true ->
       exists s, last_some (status_of k) (since is_reweight (since is_reset es)) = Some s /\
         (u32 (SpecAgent.count is_iter (upto is_reweight (since is_reset es))) <= st_iter s)%N /\
         st_state s = INITIALIZED /\ st_ready s = true)).
Proof. exact @upd_hist. Qed.
Print Assumptions C35_update_weights.

Example C35_example_ready : exists a, areach zx 1 (zp false) (join ++ [AIterate zopt true; st0 1 1 true]) a /\
  (ag_shouldUpdateMeasurementWeights a = Ok true /\ (a_inner a < p_innerIters (a_params a))%Z).
Proof. exact ex_update. Qed.
Example C35_example_limit : exists a, areach zx 1 (zp false) (join ++ [AIterate zopt true; AIterate zopt true; st0 1 1 false]) a /\
  ag_shouldUpdateMeasurementWeights a = Ok true.
Proof. exact ex_limit. Qed.
Example C35_example_not_yet : exists a, areach zx 1 (zp false) (join ++ [AIterate zopt true; st0 1 1 false]) a /\
  ag_shouldUpdateMeasurementWeights a = Ok false.
Proof. exact ex_nolimit. Qed.

(** ** C36: neighbour pose caches *)
Theorem C36_cache : forall S (HS : Num S) (x : Ext S) id p os a, areach x id p os a -> forall q v,
  (mfind pose_ltb q (a_ndict a) = Some v <-> last_delivery delivers (history x id p os) q v) /\
  (mfind pose_ltb q (a_naux a) = Some v <-> last_delivery delivers_aux (history x id p os) q v).
Proof. exact @cache_hist. Qed.
Print Assumptions C36_cache.

Theorem C36_only_required : forall S (HS : Num S) (x : Ext S) id p os a q v, areach x id p os a ->
  mfind pose_ltb q (a_ndict a) = Some v \/ mfind pose_ltb q (a_naux a) = Some v ->
  touches a q /\ mrows v = p_r p /\ mcols v = (p_d p + 1)%nat /\ a_state a = INITIALIZED.
Proof. exact @c36_required. Qed.
Print Assumptions C36_only_required.

Theorem C36_wrong_robot : forall S (HS : Num S) (x : Ext S) id p os a k dict q v,
  areach x id p os a -> a_state a = INITIALIZED -> receivable a k -> In (q, v) dict -> robot_id q <> k ->
  ag_updateNeighborPoses x a k dict = Abort /\ ag_updateAuxNeighborPoses a k dict = Abort.
Proof. exact @c36_wrong. Qed.
Print Assumptions C36_wrong_robot.

Theorem C36_own_robot : forall S (HS : Num S) (x : Ext S) id p os a dict, areach x id p os a ->
  ag_updateNeighborPoses x a id dict = Abort /\ ag_updateAuxNeighborPoses a id dict = Abort.
Proof. exact @c36_own. Qed.
Print Assumptions C36_own_robot.

(** [join] delivers three poses, of which two are required by a shared edge. *)
Example C36_example : exists a, areach zx 1 (zp false) join a /\ map fst (a_ndict a) = [mkPoseID 0 5; mkPoseID 0 6].
Proof. destruct (ex_joined false) as (a & R & _ & _ & E & _). exact (ex_intro _ a (conj R E)). Qed.

(** ** C25: fixed weights *)
Theorem C25_fixed_kept : forall S (HS : Num S) (x : Ext S) id p os a a', areach x id p os a ->
  ag_updateMeasurementWeights a = Ok a' \/ ag_initializeRobustOptimization a = Ok a' ->
  pg_odom (a_pg a') = pg_odom (a_pg a) /\
  same_unless (fun m => negb (mfixed m)) (pg_priv (a_pg a)) (pg_priv (a_pg a')) /\
  same_unless (fun m => negb (mfixed m) && lc_active a m) (pg_shared (a_pg a)) (pg_shared (a_pg a')).
Proof. exact @c25_fixed. Qed.
Print Assumptions C25_fixed_kept.

(** The others get the weight of the robust cost at their current residual. *)
Theorem C25_update_exact : forall S (HS : Num S) (x : Ext S) id p os a a', areach x id p os a ->
  ag_updateMeasurementWeights a = Ok a' ->
  (a_state a <> INITIALIZED -> a' = a) /\
  (a_state a = INITIALIZED ->
   pg_odom (a_pg a') = pg_odom (a_pg a) /\ pg_priv (a_pg a') = map (reweighted a) (pg_priv (a_pg a)) /\
   pg_shared (a_pg a') = map (fun m => if lc_active a m then reweighted a m else m) (pg_shared (a_pg a))).
Proof. exact @c25_update. Qed.
Print Assumptions C25_update_exact.

(** What else a weight update does: the cost advances one step, cached matrices, readiness and team status are
    dropped, and the first [nreset] times the estimate goes back to the initial guess. *)
Theorem C25_update_rest : forall S (HS : Num S) (x : Ext S) id p os a a', areach x id p os a -> a_state a = INITIALIZED ->
  ag_updateMeasurementWeights a = Ok a' ->
  a_rc a' = rc_update (a_rc a) /\
  pg_Q (a_pg a') = None /\ pg_G (a_pg a') = None /\ pg_precon (a_pg a') = None /\
  st_ready (a_status a') = false /\ a_team a' = [] /\ a_inner a' = 0%Z /\ a_lwu a' = a_iter a /\ a_iter a' = a_iter a /\
  a_wuc a' = (a_wuc a + 1)%Z /\ a_state a' = INITIALIZED /\ a_XInit a' = a_XInit a /\ a_TLocal a' = a_TLocal a /\ a_anchor a' = a_anchor a /\
  (if (a_trc a <? p_nreset p)%Z
   then a_trc a' = (a_trc a + 1)%Z /\ a_ndict a' = [] /\ a_naux a' = [] /\ a_XInit a = Some (a_X a')
   else a_trc a' = a_trc a /\ a_ndict a' = a_ndict a /\ a_naux a' = a_naux a /\ a_X a' = a_X a).
Proof. exact @c25_rest. Qed.
Print Assumptions C25_update_rest.

Theorem C25_reset_exact : forall S (HS : Num S) (x : Ext S) id p os a a', areach x id p os a ->
  ag_initializeRobustOptimization a = Ok a' ->
  a_rc a' = rc_reset (a_rc a) /\
  let f m := if mfixed m then m else set_mweight n1 m in
  pg_odom (a_pg a') = pg_odom (a_pg a) /\ pg_priv (a_pg a') = map f (pg_priv (a_pg a)) /\
  pg_shared (a_pg a') = map (fun m => if lc_active a m then f m else m) (pg_shared (a_pg a)).
Proof. exact @c25_initRobust. Qed.
Print Assumptions C25_reset_exact.

(** The private closure with the wrong length is rejected, the fixed one with
    weight 7 keeps it. *)
Example C25_example : exists a, areach zx 1 (zp false) join a /\
  (map mweight (pg_priv (a_pg a)) = [1; 7]%Q /\ map mfixed (pg_priv (a_pg a)) = [false; true] /\
   match ag_updateMeasurementWeights a with
   | Ok a' => map mweight (pg_priv (a_pg a')) = [0; 7]%Q /\ map mweight (pg_shared (a_pg a')) = [1; 1]%Q
   | _ => False end).
Proof. exact ex_weights. Qed.
Example C25_example_inactive : exists a, areach zx 1 (zp false) (join ++ [AIterate zopt true; ASetActive 0 false]) a /\
  match ag_updateMeasurementWeights a with
  | Ok a' => map mweight (pg_priv (a_pg a')) = [0; 7]%Q /\ map mweight (pg_shared (a_pg a')) = [1; 1]%Q
  | _ => False end.
Proof. exact ex_inactive. Qed.

(** [solveRobustPGO] does not keep fixed weights: it sets them to 1. *)
Theorem C25_solveRobustPGO_fixed : forall S (HS : Num S) mudiv solve (ms : list (Meas S)) rp T ms',
  solveRobustPGO mudiv solve ms rp = Ok (T, ms') ->
  Forall2 (fun m m' => strip m' = strip m /\ mfixed m' = mfixed m /\ (mfixed m = true -> mweight m' = n1)) ms ms'.
Proof. exact @solveRobust_fixed. Qed.
Print Assumptions C25_solveRobustPGO_fixed.

Theorem C25_solveRobustPGO_refuted : exists (ms : list (Meas Q)) T ms' m m',
  solveRobustPGO Qdiv (fun _ => zarr) ms init_gnc_params = Ok (T, ms') /\
  In (m, m') (combine ms ms') /\ mfixed m = true /\ mweight m' <> mweight m.
Proof. exact robust_overwrites. Qed.
Print Assumptions C25_solveRobustPGO_refuted.

(** ** C37: no movement *)
Theorem C37_still : forall S (HS : Num S) (x : Ext S) id p os a opt b a' s,
  areach x id p os a -> p_accel p = false -> ag_iterate x opt a b = Ok (a', s) ->
  b = false \/ a_state a <> INITIALIZED \/ missing_pose a (a_ndict a) -> a_X a' = a_X a.
Proof. exact @c37_still. Qed.
Print Assumptions C37_still.

Theorem C37_fail : forall S (HS : Num S) (x : Ext S) id p os a opt b a' s,
  areach x id p os a -> ag_iterate x opt a b = Ok (a', s) -> s = false ->
  a_state a = INITIALIZED /\ b = true /\ missing_pose a (if p_accel p then a_naux a else a_ndict a) /\ st_ready (a_status a') = false.
Proof. exact @c37_fail. Qed.
Print Assumptions C37_fail.

Example C37_example : exists a, areach zx 1 (zp false) (join ++ [AClearNbr; AUpdNbr 0 [(mkPoseID 0 5, zpose 0 0)]]) a /\
  (a_state a = INITIALIZED /\ map fst (a_ndict a) = [mkPoseID 0 5] /\
   match ag_iterate zx zopt a true with Ok (_, s) => s = false | _ => False end).
Proof. exact ex_missing. Qed.

(** ** C39: restart schedule *)
Theorem C39_restart : forall S (HS : Num S) (x : Ext S) id p os a opt b a' s,
  areach x id p os a -> p_accel p = true -> a_state a = INITIALIZED -> ag_iterate x opt a b = Ok (a', s) ->
  p_restart p <> 0%N /\ a_iter a' = u32 (a_iter a + 1) /\
  (if (u32 (a_iter a' + 1) mod p_restart p =? 0)%N
   then a_V a' = a_X a' /\ a_Y a' = a_X a' /\ a_gamma a' = n0 /\ a_alpha a' = n0 /\ (b = false -> a_X a' = a_X a)
   else a_gamma a' = next_gamma (p_numRobots p) (a_gamma a) /\
        a_alpha a' = next_alpha (p_numRobots p) (next_gamma (p_numRobots p) (a_gamma a))).
Proof. exact @c39_restart. Qed.
Print Assumptions C39_restart.

Theorem C39_zero_interval : forall S (HS : Num S) (x : Ext S) id p os a opt b r,
  areach x id p os a -> p_accel p = true -> a_state a = INITIALIZED -> p_restart p = 0%N -> ag_iterate x opt a b <> Ok r.
Proof. exact @c39_zero. Qed.
Print Assumptions C39_zero_interval.

Example C39_example : exists a, areach zx 1 (zp true) (join ++ [aux; AIterate zopt true]) a /\
  (a_gamma a = (1 # 2)%Q /\ a_alpha a = 1%Q /\
   match ag_iterate zx zopt a true with Ok (a', s) => a_iter a' = 2%N /\ a_gamma a' = 0%Q | _ => False end).
Proof. exact ex_restart. Qed.

(** ** C42: reset *)
Theorem C42_reset : forall S (HS : Num S) (x : Ext S) id p os a a', areach x id p os a -> ag_reset x a = Ok a' ->
  a_state a' = WAIT_FOR_DATA /\ a_thread a' = false /\ a_inst a' = u32 (a_inst a + 1) /\
  a_iter a' = 0%N /\ a_lwu a' = 0%N /\ a_inner a' = 0%Z /\ a_wuc a' = 0%Z /\ a_trc a' = 0%Z /\
  a_XInit a' = None /\ a_TLocal a' = None /\ a_anchor a' = None /\ a_ndict a' = [] /\ a_naux a' = [] /\ a_team a' = [] /\
  a_pub a' = false /\ a_pubasync a' = false /\
  a_status a' = mkStatus id WAIT_FOR_DATA (u32 (a_inst a + 1)) 0 false n0 /\
  pg_Q (a_pg a') = None /\ pg_G (a_pg a') = None /\ pg_precon (a_pg a') = None /\ pg_nposes (a_pg a') = [] /\ pg_priors (a_pg a') = [] /\
  measurements (a_pg a') = measurements (a_pg a) /\ pg_n (a_pg a') = pg_n (a_pg a) /\
  a_id a' = a_id a /\ a_params a' = a_params a /\ a_YLift a' = a_YLift a /\ a_rc a' = a_rc a.
Proof. exact @c42_reset. Qed.
Print Assumptions C42_reset.

(** It never fails (writing the log file reads the trajectory). *)
Theorem C42_reset_runs : forall S (HS : Num S) (x : Ext S) id p os a, areach x id p os a -> p_log p = false ->
  exists a', ag_reset x a = Ok a'.
Proof. exact @reset_runs. Qed.
Print Assumptions C42_reset_runs.

(** The pose graph is not emptied: after a reset the agent still has its poses
    and measurements. *)
Theorem C42_empty_refuted : exists a, areach zx 1 (zp false) (join ++ [AReset]) a /\
  (a_state a = WAIT_FOR_DATA /\ num_poses a = 3%nat /\ length (measurements (a_pg a)) = 6%nat).
Proof. exact reset_keeps. Qed.
Print Assumptions C42_empty_refuted.

(** ** C50: team status *)
Theorem C50_team_status : forall S (HS : Num S) (x : Ext S) id p os a, areach x id p os a ->
  (forall k s, mfind N.ltb k (a_team a) = Some s -> st_id s = k) /\
  (exists b, ag_shouldTerminate a = Ok b) /\ (exists b, ag_shouldUpdateMeasurementWeights a = Ok b).
Proof. exact @c50. Qed.
Print Assumptions C50_team_status.

Example C50_example : exists a, areach zx 1 (zp false) (join ++ [AUpdWeights; st0 0 0 true; st0 1 0 false; AIterate zopt true; st0 1 1 true]) a /\
  map fst (a_team a) = [0; 1]%N.
Proof. destruct ex_team as (a & R & _ & _ & E). exact (ex_intro _ a (conj R E)). Qed.
