(** Properties C01-C09 and C48: the pose graph.  Each theorem is followed by an
    example showing that its hypotheses hold in a non-trivial case. *)
From Coq Require Import List NArith ZArith Bool Lia Permutation Reals.
From Verif Require Import Base SMap Num ModelTypes ModelPoseGraph SpecPoseGraph SpecPGHist
  ProofsPoseGraph ProofsPGHist ProofsPGData ProofsLaplacian ProofsPGMain ProofsPGCex.
Import ListNotations.
Local Open Scope res_scope.

(** ** C01 *)
Theorem C01_store_exact : forall S (HS : Num S) id r d (L : list (Meas S)),
  (d <= r)%nat -> Forall ids_ok L -> Forall (shape_ok d) L ->
  exists g, (do g0 <- newPoseGraph id r d; pg_run g0 (map PAdd L)) = Ok g /\
    pg_odom g = filter (is_odom id) (kept id L) /\
    pg_priv g = filter (is_priv id) (kept id L) /\
    pg_shared g = filter (is_shared id) (kept id L).
Proof. exact @store_exact. Qed.
Print Assumptions C01_store_exact.

Example C01_example :
  Forall ids_ok ex_input /\ Forall (shape_ok 2) ex_input /\
  map mp2 (filter (is_odom 0) (kept 0 ex_input)) = [1; 2; 3]%N /\
  map (fun m => mt m 0%nat 0%nat) (filter (is_shared 0) (kept 0 ex_input)) = [5; 6]%Z /\
  length (kept 0 ex_input) = 6%nat.
Proof. exact ex_C01. Qed.

(** Any history of calls: what is stored is what the abstract history keeps
    (everything but weight and fixed flag). *)
Theorem C01_store_any_history : forall S (HS : Num S) id r d (os : list (pgop S)) g,
  reach id r d os g ->
  let K := kept id (h_in (h_run id os)) in
  map strip (pg_odom g) = map strip (filter (is_odom id) K) /\
  map strip (pg_priv g) = map strip (filter (is_priv id) K) /\
  map strip (pg_shared g) = map strip (filter (is_shared id) K).
Proof. exact @store_reach. Qed.
Print Assumptions C01_store_any_history.

(** Irrelevant and repeated edges leave the graph untouched; a new relevant edge
    of the wrong dimension terminates the program. *)
Theorem C01_irrelevant_ignored : forall S (HS : Num S) id r d (os : list (pgop S)) g m,
  reach id r d os g -> relevantb id m = false -> addMeasurement g m = Ok g.
Proof. exact @irrelevant_ignored. Qed.
Theorem C01_duplicate_ignored : forall S (HS : Num S) id r d (os : list (pgop S)) g m m',
  reach id r d os g -> ids_ok m -> In m' (measurements g) -> same_edgeb m' m = true ->
  addMeasurement g m = Ok g.
Proof. exact @duplicate_ignored. Qed.
Theorem C01_malformed_aborts : forall S (HS : Num S) id r d (os : list (pgop S)) g m,
  reach id r d os g -> ids_ok m -> relevantb id m = true ->
  (forall m', In m' (measurements g) -> same_edgeb m' m = false) -> ~ shape_ok d m ->
  addMeasurement g m = Abort.
Proof. exact @malformed_abort. Qed.
Print Assumptions C01_irrelevant_ignored.
Print Assumptions C01_duplicate_ignored.
Print Assumptions C01_malformed_aborts.

Example C01_history_example : exists g, reach 0 3 2 ex_filled g /\
  length (measurements g) = 6%nat /\ pg_n g = 4%N.
Proof. exact ex_reach. Qed.

(** ** C02 *)
Theorem C02_lookup_exact : forall S (HS : Num S) id r d (os : list (pgop S)) g src dst,
  reach id r d os g ->
  match find (joinsb src dst) (filter (relevantb id) (h_in (h_run id os))) with
  | Some m0 => hasMeasurement g src dst = true /\
      exists p m, findMeasurement g src dst = Ok (Some p) /\ deref g p = Some m /\ strip m = strip m0
  | None => hasMeasurement g src dst = false /\ findMeasurement g src dst = Ok None
  end.
Proof. exact @lookup_spec. Qed.
Print Assumptions C02_lookup_exact.

Example C02_example :
  (exists g, reach 0 3 2 ex_filled g) /\
  (exists m0, find (joinsb (mkPoseID 0 1) (mkPoseID 0 2))
     (filter (relevantb 0) (h_in (h_run 0 ex_filled))) = Some m0 /\ mt m0 0%nat 0%nat = 1%Z) /\
  find (joinsb (mkPoseID 0 2) (mkPoseID 0 1)) (filter (relevantb 0) (h_in (h_run 0 ex_filled))) = None.
Proof. exact ex_C02. Qed.

(** With ids that do not fit 32 bits the lookup reports an edge that was never
    inserted, and fetching it terminates the program. *)
Theorem C02_wrapping_ids_refuted : exists (os : list (pgop Z)) g src dst,
  (do g0 <- newPoseGraph 0 3 2; pg_run g0 os) = Ok g /\
  (forall m, In m (measurements g) -> ~ joins m src dst) /\
  hasMeasurement g src dst = true /\ findMeasurement g src dst = Abort.
Proof. exact cex_lookup. Qed.
Print Assumptions C02_wrapping_ids_refuted.

(** ** C03 *)
Theorem C03_num_poses : forall S (HS : Num S) id r d (os : list (pgop S)) g,
  reach id r d os g -> num_poses_spec id (kept id (h_in (h_run id os))) (pg_n g).
Proof. exact @n_spec. Qed.
Theorem C03_num_poses_monotone : forall S (HS : Num S) id r d (os : list (pgop S)) g os' g',
  reach id r d os g -> Forall op_ok os' -> forallb (fun o => negb (clears o)) os' = true ->
  pg_run g os' = Ok g' -> (pg_n g <= pg_n g')%N.
Proof. exact @n_mono_reach. Qed.
Print Assumptions C03_num_poses.
Print Assumptions C03_num_poses_monotone.

Example C03_example : exists g, reach 0 3 2 ex_filled g /\
  length (measurements g) = 6%nat /\ pg_n g = 4%N.
Proof. exact ex_reach. Qed.

(** Pose index 2^32-1: the pose is stored but n() stays 0. *)
Theorem C03_wrap_refuted : exists (m : Meas Z) g,
  (do g0 <- newPoseGraph 0 3 2; addMeasurement g0 m) = Ok g /\
  In m (measurements g) /\ mp2 m = 4294967295%N /\ ~ num_poses_spec 0 (measurements g) (pg_n g).
Proof. exact cex_n. Qed.
Print Assumptions C03_wrap_refuted.

(** ** C04 *)
Theorem C04_neighbour_sets : forall S (HS : Num S) id r d (os : list (pgop S)) g,
  reach id r d os g ->
  let K := kept id (h_in (h_run id os)) in
  (forall k, In k (pg_nbrs g) <-> exists m, In m K /\ is_shared id m = true /\ other_robot id m = k) /\
  (forall p, In p (pg_lpub g) <-> exists m, In m K /\ is_shared id m = true /\ own_pose id m = p) /\
  (forall p, In p (pg_npub g) <-> exists m, In m K /\ is_shared id m = true /\ other_pose id m = p) /\
  (forall p, requireNeighborPose g p = true <-> In p (pg_npub g)) /\
  (forall k, hasNeighbor g k = true <-> In k (pg_nbrs g)) /\
  NoDup (pg_nbrs g) /\ NoDup (pg_lpub g) /\ NoDup (pg_npub g) /\
  updatePublicPoseIDs g = Ok g.
Proof. exact @nbr_sets. Qed.
Print Assumptions C04_neighbour_sets.

Example C04_example : exists g, reach 0 3 2 ex_filled g /\
  pg_nbrs g = [1; 2]%N /\ pg_lpub g = [mkPoseID 0 1; mkPoseID 0 3] /\
  pg_npub g = [mkPoseID 1 0; mkPoseID 2 4].
Proof. exact ex_C04. Qed.

(** ** C05 *)
Theorem C05_partition : forall S (HS : Num S) id r d (os : list (pgop S)) g,
  reach id r d os g ->
  exists A I, activeLoopClosures g = Ok A /\ inactiveLoopClosures g = Ok I /\
    Permutation (A ++ I) (allLoopClosures g) /\ NoDup (A ++ I) /\
    (forall p, In p (allLoopClosures g) <-> (exists m, deref g p = Some m) /\ forall i, p <> ROdom i) /\
    (forall p m, deref g p = Some m -> (forall i, p <> ROdom i) ->
       (In p A <-> is_priv id m = true \/ isNeighborActive g (other_robot id m) = Ok true)).
Proof. exact @partition_reach. Qed.
Print Assumptions C05_partition.

Theorem C05_activity_history : forall S (HS : Num S) id r d (os : list (pgop S)) g k,
  reach id r d os g ->
  isNeighborActive g k = Ok (h_nbr id (h_run id os) k && h_act (h_run id os) k).
Proof. exact @active_spec. Qed.
Print Assumptions C05_activity_history.

Theorem C05_set_active_effect : forall S (HS : Num S) id r d (os : list (pgop S)) g k b,
  reach id r d os g ->
  exists g', setNeighborActive g k b = Ok g' /\
    (hasNeighbor g k = false -> g' = g) /\
    (hasNeighbor g k = true -> isNeighborActive g' k = Ok b) /\
    (forall k', k' <> k -> isNeighborActive g' k' = isNeighborActive g k') /\
    measurements g' = measurements g /\ pg_nbrs g' = pg_nbrs g /\ pg_n g' = pg_n g /\
    pg_nposes g' = pg_nposes g /\ pg_priors g' = pg_priors g.
Proof. exact @setActive_reach. Qed.
Print Assumptions C05_set_active_effect.

Example C05_example : exists g, reach 0 3 2 (ex_filled ++ [PActive 2 false]) g /\
  activeLoopClosures g = Ok [RPriv 0; RShared 0] /\ inactiveLoopClosures g = Ok [RShared 1].
Proof. exact ex_C05. Qed.

(** ** C06 *)
Theorem C06_statistics : forall id r d (os : list (pgop R)) g,
  reach id r d os g ->
  exists A L st, activeLoopClosures g = Ok A /\ map (deref g) A = map Some L /\
    statistics g = Ok st /\ total_lc st = length L /\
    accept_lc st = count (fun m => if Req_EM_T (mweight m) 1 then true else false) L /\
    reject_lc st = count (fun m => if Req_EM_T (mweight m) 0 then true else false) L /\
    (accept_lc st + reject_lc st + undecided_lc st = total_lc st)%nat.
Proof. exact stats_R. Qed.
Print Assumptions C06_statistics.

(** The same with NaN and infinite weights: such edges are undecided. *)
Theorem C06_statistics_nonfinite : forall id r d (os : list (pgop XR)) g,
  reach id r d os g ->
  exists A L st, activeLoopClosures g = Ok A /\ map (deref g) A = map Some L /\
    statistics g = Ok st /\ total_lc st = length L /\
    accept_lc st = count (fun m => xeqb (mweight m) (Fin 1)) L /\
    reject_lc st = count (fun m => xeqb (mweight m) (Fin 0)) L /\
    undecided_lc st = count (fun m => negb (xeqb (mweight m) (Fin 1)) && negb (xeqb (mweight m) (Fin 0))) L /\
    (accept_lc st + reject_lc st + undecided_lc st = total_lc st)%nat.
Proof. exact stats_XR. Qed.
Print Assumptions C06_statistics_nonfinite.

Example C06_example : exists g,
  reach 0 3 2 (ex_filled ++ [PWeight (RShared 0) 0 false; PWeight (RPriv 0) 3 false; PActive 2 false])%Z g /\
  statistics g = Ok (mkStats 2 0 1 1).
Proof. exact ex_C06. Qed.

(** ** C07 *)
Theorem C07_cache_coherent : forall S (HS : Num S) id r d (os : list (pgop S)) g0 g,
  newPoseGraph id r d = Ok g0 -> Forall op_ok os -> disciplined false g0 os -> pg_run g0 os = Ok g ->
  (forall g1 Q, quadraticMatrix g = Ok (g1, Q) ->
     forall g2 Q', quadraticMatrix (clearDataMatrices g) = Ok (g2, Q') -> Q = Q') /\
  (forall g1 G, linearMatrix g = Ok (g1, G) ->
     exists g2, linearMatrix (clearDataMatrices g) = Ok (g2, G)) /\
  (forall P, pg_precon g = Some P ->
     forall g2 Q', quadraticMatrix (clearDataMatrices g) = Ok (g2, Q') -> P = precon_matrix Q').
Proof. exact @cache_reach. Qed.
Print Assumptions C07_cache_coherent.

(** Clearing drops the three caches and nothing else. *)
Theorem C07_cleared : forall S (g : PoseGraph S), clearDataMatrices g =
  mkPG (pg_id g) (pg_r g) (pg_d g) (pg_n g) (pg_odom g) (pg_priv g) (pg_shared g) (pg_lpub g) (pg_npub g) (pg_nbrs g)
    (pg_active g) (pg_nposes g) None None None (pg_index g) (pg_useinact g) (pg_priors g).
Proof. exact @clear_exact. Qed.
Print Assumptions C07_cleared.

Example C07_example : exists g0 g,
  newPoseGraph 0 3 2 = Ok g0 /\ Forall op_ok ex_disc /\ disciplined false g0 ex_disc /\
  pg_run g0 ex_disc = Ok g /\ exists Q, pg_Q g = Some Q.
Proof. exact ex_C07. Qed.

(** Each clause of the discipline is needed. *)
Theorem C07_stale_prior_refuted : exists (os : list (pgop Z)) g,
  os = ex_filled ++ [PSetPrior 0 (ex_pose 1)] /\ reach 0 3 2 os g /\
  exists g1 Q g2 Q', quadraticMatrix g = Ok (g1, Q) /\
    quadraticMatrix (clearDataMatrices g) = Ok (g2, Q') /\ Q <> Q'.
Proof. exact cex_prior. Qed.
Theorem C07_stale_add_refuted : exists (os : list (pgop Z)) g,
  os = ex_filled ++ [PAdd (ex_meas 0 0 0 2 2)] /\ reach 0 3 2 os g /\
  exists g1 Q g2 Q', quadraticMatrix g = Ok (g1, Q) /\
    quadraticMatrix (clearDataMatrices g) = Ok (g2, Q') /\ Q <> Q'.
Proof. exact cex_add. Qed.
Theorem C07_stale_weight_refuted : exists (os : list (pgop Z)) g,
  os = ex_filled ++ [PWeight (RPriv 0) 0%Z false] /\ reach 0 3 2 os g /\
  exists g1 Q g2 Q', quadraticMatrix g = Ok (g1, Q) /\
    quadraticMatrix (clearDataMatrices g) = Ok (g2, Q') /\ Q <> Q'.
Proof. exact cex_weight. Qed.
Theorem C07_stale_inactive_refuted : exists (os : list (pgop Z)) g,
  os = ex_ops ++ [PUseInactive true; PActive 1 false; PActive 2 false; PConstruct; PSetNbr ex_nbr] /\
  reach 0 3 2 os g /\
  exists g1 Q g2 Q', quadraticMatrix g = Ok (g1, Q) /\
    quadraticMatrix (clearDataMatrices g) = Ok (g2, Q') /\ Q <> Q'.
Proof. exact cex_inactive. Qed.
Print Assumptions C07_stale_prior_refuted.
Print Assumptions C07_stale_add_refuted.
Print Assumptions C07_stale_weight_refuted.
Print Assumptions C07_stale_inactive_refuted.

(** ** C08 *)
Theorem C08_construct_success : forall S (HS : Num S) id r d (os : list (pgop S)) g,
  reach id r d os g ->
  constructDataMatrices g <> Abort /\
  forall g' b, constructDataMatrices g = Ok (g', b) ->
    (pg_Q g = None \/ pg_G g = None -> (b = true <-> needed_known g)) /\
    (b = false -> g' = g) /\
    (b = true -> pg_Q g' <> None /\ pg_G g' <> None).
Proof. exact @construct_reach. Qed.
Theorem C08_construct_success_disciplined : forall S (HS : Num S) id r d (os : list (pgop S)) g0 g g' b,
  newPoseGraph id r d = Ok g0 -> Forall op_ok os -> disciplined false g0 os -> pg_run g0 os = Ok g ->
  constructDataMatrices g = Ok (g', b) -> (b = true <-> needed_known g).
Proof. exact @construct_disciplined. Qed.
Print Assumptions C08_construct_success.
Print Assumptions C08_construct_success_disciplined.

Example C08_example :
  (exists g g', reach 0 3 2 (ex_ops ++ [PSetNbr ex_nbr]) g /\ constructDataMatrices g = Ok (g', true)) /\
  (exists g g', reach 0 3 2 (ex_ops ++ [PSetNbr (firstn 1 ex_nbr)]) g /\ constructDataMatrices g = Ok (g', false)).
Proof. exact ex_C08. Qed.

(** ** C09 *)
Theorem C09_shape : forall S (HS : Num S) id r d (os : list (pgop S)) g,
  reach id r d os g -> no_self g -> last_private g ->
  exists g' b, constructQ g = Ok (g', b) /\
    (b = true -> exists Q, pg_Q g' = Some Q /\
       mrows Q = (Datatypes.S d * N.to_nat (pg_n g))%nat /\ mcols Q = mrows Q).
Proof. exact @constructQ_shape. Qed.
Theorem C09_undefined : forall S (HS : Num S) id r d (os : list (pgop S)) g,
  reach id r d os g ->
  (exists m, In m (pg_odom g ++ pg_priv g) /\ mp1 m = mp2 m) \/
  ((1 <= d)%nat /\ pg_n g <> 0%N /\ ~ last_private g /\ needed_known g) ->
  constructQ g = UB.
Proof. exact @constructQ_ub. Qed.
Print Assumptions C09_shape.
Print Assumptions C09_undefined.

Example C09_example :
  (exists g, reach 0 3 2 (ex_ops ++ [PSetNbr ex_nbr]) g /\ no_self g /\ last_private g).
Proof. exact ex_C09. Qed.

Theorem C09_no_private_refuted : exists g,
  reach 0 3 2 [PAdd (ex_meas 0 0 1 0 1); PSetNbr ex_nbr] g /\ constructQ g = UB.
Proof. exact cex_noprivate. Qed.
Theorem C09_last_shared_refuted : exists g,
  reach 0 3 2 [PAdd (ex_meas 0 0 0 1 1); PAdd (ex_meas 0 2 1 0 1); PSetNbr ex_nbr] g /\ constructQ g = UB.
Proof. exact cex_lastshared. Qed.
Theorem C09_self_edge_refuted : exists g,
  reach 0 3 2 [PAdd (ex_meas 0 0 0 1 1); PAdd (ex_meas 0 1 0 1 1)] g /\ constructQ g = UB.
Proof. exact cex_self. Qed.
Print Assumptions C09_no_private_refuted.
Print Assumptions C09_last_shared_refuted.
Print Assumptions C09_self_edge_refuted.

(** ** C48 *)
Theorem C48_pose_order : 
  (forall a, pose_ltb a a = false) /\
  (forall a b c, pose_ltb a b = true -> pose_ltb b c = true -> pose_ltb a c = true) /\
  (forall a b, pose_ltb a b = true \/ a = b \/ pose_ltb b a = true) /\
  (forall a b, pose_ltb a b = false /\ pose_ltb b a = false <-> a = b) /\
  (forall a b, poseid_eqb a b = true <-> a = b).
Proof. exact pose_order. Qed.
Theorem C48_edge_order : 
  (forall a, edge_ltb a a = false) /\
  (forall a b c, edge_ltb a b = true -> edge_ltb b c = true -> edge_ltb a c = true) /\
  (forall a b, edge_ltb a b = true \/ a = b \/ edge_ltb b a = true) /\
  (forall a b, edge_ltb a b = false /\ edge_ltb b a = false <-> a = b) /\
  (forall a b, edgeid_eqb a b = true <-> a = b).
Proof. exact edge_order. Qed.
Theorem C48_hash : forall combine hv a b,
  edgeid_eqb a b = true -> edge_hash combine hv a = edge_hash combine hv b.
Proof. exact edge_hash_eq. Qed.
(** Exactly one of the three kinds, for every edge id. *)
Theorem C48_edge_kinds : forall e,
  (edge_isOdometry e = true /\ edge_isPrivate e = false /\ edge_isShared e = false) \/
  (edge_isOdometry e = false /\ edge_isPrivate e = true /\ edge_isShared e = false) \/
  (edge_isOdometry e = false /\ edge_isPrivate e = false /\ edge_isShared e = true).
Proof. exact edge_kinds. Qed.
Print Assumptions C48_pose_order.
Print Assumptions C48_edge_order.
Print Assumptions C48_hash.
Print Assumptions C48_edge_kinds.
Example C48_example :
  pose_ltb (mkPoseID 1 9) (mkPoseID 2 0) = true /\
  edge_ltb (mkEdgeID (mkPoseID 0 9) (mkPoseID 1 0)) (mkEdgeID (mkPoseID 0 0) (mkPoseID 2 0)) = true.
Proof. split; reflexivity. Qed.
