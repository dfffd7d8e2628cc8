{
 "claims": [
  {
   "property": "C01",
   "status": "proved",
   "theorems": [
    "C01_store_exact",
    "C01_store_any_history",
    "C01_irrelevant_ignored",
    "C01_duplicate_ignored",
    "C01_malformed_aborts"
   ],
   "note": "Full statement for add sequences; also for any history of calls up to weight writes; what is ignored and what aborts."
  },
  {
   "property": "C02",
   "status": "proved",
   "theorems": [
    "C02_lookup_exact",
    "C02_wrapping_ids_refuted"
   ],
   "note": "All histories with ids below 2^32-1; counterexample with wrapping ids."
  },
  {
   "property": "C03",
   "status": "proved",
   "theorems": [
    "C03_num_poses",
    "C03_num_poses_monotone",
    "C03_wrap_refuted"
   ],
   "note": "Value after any history and monotonicity; counterexample at index 2^32-1."
  },
  {
   "property": "C04",
   "status": "proved",
   "theorems": [
    "C04_neighbour_sets"
   ],
   "note": "Exact sets after any history."
  },
  {
   "property": "C05",
   "status": "proved",
   "theorems": [
    "C05_partition",
    "C05_activity_history",
    "C05_set_active_effect"
   ],
   "note": "Partition, activity as a function of the history, effect of setNeighborActive."
  },
  {
   "property": "C06",
   "status": "proved",
   "theorems": [
    "C06_statistics",
    "C06_statistics_nonfinite"
   ],
   "note": "Real weights and weights with NaN and infinities."
  },
  {
   "property": "C07",
   "status": "proved",
   "theorems": [
    "C07_cache_coherent",
    "C07_cleared",
    "C07_stale_prior_refuted",
    "C07_stale_add_refuted",
    "C07_stale_weight_refuted",
    "C07_stale_inactive_refuted"
   ],
   "note": "Coherence for disciplined histories; four counterexamples show each clause is needed."
  },
  {
   "property": "C08",
   "status": "proved",
   "theorems": [
    "C08_construct_success",
    "C08_construct_success_disciplined"
   ],
   "note": "Success iff needed poses are cached; failure leaves the graph unchanged."
  },
  {
   "property": "C09",
   "status": "proved",
   "theorems": [
    "C09_shape",
    "C09_undefined",
    "C09_no_private_refuted",
    "C09_last_shared_refuted",
    "C09_self_edge_refuted"
   ],
   "note": "Shape and absence of out-of-range writes under the stated conditions; undefined otherwise."
  },
  {
   "property": "C10",
   "status": "proved",
   "theorems": [
    "C10_cost_identity",
    "C10_cost_defined"
   ],
   "note": "Exact identity over the reals for every graph with fresh caches, and definedness of f."
  },
  {
   "property": "C11",
   "status": "proved",
   "theorems": [
    "C11_derivatives",
    "C11_derivatives_defined"
   ],
   "note": "Exact second order expansion and definedness over the reals."
  },
  {
   "property": "C12",
   "status": "proved",
   "theorems": [
    "C12_psd_cholesky",
    "C12_factorised_matrix"
   ],
   "note": "Symmetry, positive semidefiniteness, positive definite preconditioner and existence of its Cholesky factor (real arithmetic)."
  },
  {
   "property": "C13",
   "status": "proved",
   "theorems": [
    "C13_gauge_invariance"
   ],
   "note": "Invariance of f under a common orthogonal map and translation."
  },
  {
   "property": "C14",
   "status": "proved",
   "theorems": [
    "C14_lifting_cost",
    "C14_unlift"
   ],
   "note": "Cost of the lifted trajectory equals the unlifted cost; transpose recovers the trajectory."
  },
  {
   "property": "C15",
   "status": "proved",
   "theorems": [
    "C15_local_change_is_central_change",
    "C15_descent"
   ],
   "note": "Exact equality of changes and descent along any schedule of local non-increasing updates."
  },
  {
   "property": "C16",
   "status": "proved",
   "theorems": [
    "C16_bijection",
    "C16_edges",
    "C16_placed",
    "C16_tile",
    "C16_reassemble",
    "C16_cost",
    "C16_stored",
    "C16_knows",
    "C16_no_odometry_refuted",
    "C16_selection"
   ],
   "note": "Model: ModelExample.v (partition loops, edge distribution, block cutting and reassembly, selection). Connected to the agent model (ag_setMeasurements) and to C15 (knows, central_cost). Finding: a robot without odometry edges stores none of its shared edges."
  },
  {
   "property": "C17",
   "status": "proved",
   "theorems": [
    "C17_weights_in_unit",
    "C17_L1_refuted",
    "C17_float_refuted"
   ],
   "note": "Over reals with infinities and NaN, after any sequence of update/reset calls; counterexamples for L1 and for binary64 rounding."
  },
  {
   "property": "C18",
   "status": "proved",
   "theorems": [
    "C18_weights_monotone",
    "C18_gnc_pieces"
   ],
   "note": "Monotonicity over extended reals after any updates; exact pieces and closed form of the GNC weight."
  },
  {
   "property": "C19",
   "status": "proved",
   "theorems": [
    "C19_schedule",
    "C19_schedule_monotone",
    "C19_reset",
    "C19_eventually_tls",
    "C19_band_shrinks",
    "C19_wrap_refuted"
   ],
   "note": "Exact schedule for fewer than 2^64 calls, monotonicity, reset, convergence to the TLS decision; counterexample when the 64-bit counter wraps."
  },
  {
   "property": "C20",
   "status": "proved",
   "theorems": [
    "C20_translation_average"
   ],
   "note": "Over the reals. The result exists, minimises the weighted sum of squared distances, and is the only minimiser."
  },
  {
   "property": "C21",
   "status": "proved",
   "theorems": [
    "C21_closest_rotation",
    "C21_rotation_average"
   ],
   "note": "Over the reals; the SVD is a parameter assumed to return a singular value decomposition of its argument, the determinant a parameter equal to the Leibniz-expanded determinant."
  },
  {
   "property": "C22",
   "status": "proved",
   "theorems": [
    "C22_closest_stiefel",
    "C22_wide_aborts",
    "C22_trajectory"
   ],
   "note": "Over the reals with the SVD as a parameter. Wide matrices abort (C22_wide_aborts)."
  },
  {
   "property": "C23",
   "status": "proved",
   "theorems": [
    "C23_rotation_inliers",
    "C23_pose_inliers",
    "C23_rotation_complete",
    "C23_pose_complete",
    "C23_zero_threshold_refuted"
   ],
   "note": "Positive thresholds: returned inliers are exactly the candidates whose residual under the returned estimate is below the threshold at the last reweighting. A zero threshold is refuted."
  },
  {
   "property": "C24",
   "status": "proved",
   "theorems": [
    "C24_rotation_weights",
    "C24_pose_weights"
   ],
   "note": "Weights given to the inner averaging calls at every round are the TLS weights in [0,1] times the caller's weights."
  },
  {
   "property": "C25",
   "status": "proved",
   "theorems": [
    "C25_fixed_kept",
    "C25_update_exact",
    "C25_update_rest",
    "C25_reset_exact",
    "C25_solveRobustPGO_fixed",
    "C25_solveRobustPGO_refuted",
    "C25_residual"
   ],
   "note": "Exact result of the weight update and of initializeRobustOptimization on every stored edge; solveRobustPGO sets fixed weights to 1 (theorem and counterexample)."
  },
  {
   "property": "C26",
   "status": "proved",
   "theorems": [
    "C26_chain_exact",
    "C26_chain_any",
    "C26_partial_trajectory",
    "C26_overread_refuted"
   ],
   "note": "Over the reals. The read past the end of the list is shown by C26_overread_refuted."
  },
  {
   "property": "C27",
   "status": "proved",
   "theorems": [
    "C27_associative",
    "C27_acts",
    "C27_unit",
    "C27_identity",
    "C27_product_rigid",
    "C27_inverse"
   ],
   "note": "Over the reals, any dimension; the matrix inverse used by inverse() is a parameter assumed to be a two-sided inverse of the homogeneous matrix."
  },
  {
   "property": "C28",
   "status": "proved",
   "theorems": [
    "C28_pose",
    "C28_rotation",
    "C28_translation",
    "C28_defined",
    "C28_out_of_range",
    "C28_parts",
    "C28_layout"
   ],
   "note": "Stated for real entries; the lemmas behind it hold for every scalar type."
  },
  {
   "property": "C29",
   "status": "proved",
   "theorems": [
    "C29_transform",
    "C29_residual"
   ],
   "note": "Model: ag_computeNeighborTransform, ag_initializeInGlobalFrame, ag_residual. For every reachable agent and shared edge with rigid data, either direction; existence, rigidity and uniqueness of the transform, and zero residual afterwards. Eigen's inverse assumed right at rigid poses (inverse_ok). The robust averaging over several edges is C21/C22; joining through the one-stage method is not modelled."
  },
  {
   "property": "C30",
   "status": "proved",
   "theorems": [
    "C30_local",
    "C30_enter"
   ],
   "note": "Model: ag_initialize, ag_initializeInGlobalFrame. The trajectory used is given by a separate specification (the caller's if its size fits, otherwise the configured method)."
  },
  {
   "property": "C31",
   "status": "proved",
   "theorems": [
    "C31_global",
    "C31_exact",
    "C31_pose",
    "C31_neighbour",
    "C31_none",
    "C31_local",
    "C31_local_refuted"
   ],
   "note": "Model: ag_getTrajectoryInGlobalFrame, ag_getTrajectoryInLocalFrame, ag_getPoseInGlobalFrame, ag_getNeighborPoseInGlobalFrame. The documented local-frame export is refuted (C31_local_refuted): the first translation is overwritten before it is subtracted from the others; C31_local gives the exact result and when it agrees with the documentation. SVD assumed right at the matrices it is called on."
  },
  {
   "property": "C32",
   "status": "proved",
   "theorems": [
    "C32_step",
    "C32_counters"
   ],
   "note": "Transition relation for every call; stored measurements change only by addMeasurement/setMeasurements in WAIT_FOR_DATA; counters as functions of the history."
  },
  {
   "property": "C33",
   "status": "proved",
   "theorems": [
    "C33_getters",
    "C33_aux_getters",
    "C33_aux_with_neighbor_refuted"
   ],
   "note": "Invariant over all histories. getAuxSharedPoseDictWithNeighbor lacks the acceleration check and aborts (refuted)."
  },
  {
   "property": "C34",
   "status": "proved",
   "theorems": [
    "C34_terminate",
    "C34_after_reset"
   ],
   "note": "Exact characterisation from the history alone; after reset the decision is vacuously true (exact value given)."
  },
  {
   "property": "C35",
   "status": "proved",
   "theorems": [
    "C35_update_weights"
   ],
   "note": "Exact characterisation from the history alone."
  },
  {
   "property": "C36",
   "status": "proved",
   "theorems": [
    "C36_cache",
    "C36_only_required",
    "C36_wrong_robot",
    "C36_own_robot"
   ],
   "note": "Both caches equal the last delivery since the last clearing; wrong robot ids abort."
  },
  {
   "property": "C37",
   "status": "proved",
   "theorems": [
    "C37_still",
    "C37_fail"
   ],
   "note": "Any optimiser behaviour."
  },
  {
   "property": "C38",
   "status": "proved",
   "theorems": [
    "C38_sequence",
    "C38_step",
    "C38_state",
    "C38_state_real",
    "C38_wrap_refuted"
   ],
   "note": "For N < 2^31 robots the positive solution of N g'^2 - g' = N g^2 from 0 is unique and is what updateGamma computes; strictly increasing, >= k/(2N), alpha in (0,1], 1 at the first step. Every reachable agent state carries a member of that sequence (k at most the number of iterations). At N = 2^31 the unsigned product 2*numRobots wraps to 0 (refuted)."
  },
  {
   "property": "C39",
   "status": "proved",
   "theorems": [
    "C39_restart",
    "C39_zero_interval"
   ],
   "note": "Any iteration number and interval; interval 0 never returns a result (undefined remainder)."
  },
  {
   "property": "C40",
   "status": "proved",
   "theorems": [
    "C40_order",
    "C40_order_thread",
    "C40_progress",
    "C40_order_refuted",
    "C40_deadlock_refuted"
   ],
   "note": "Interleaving model of all public calls with three mutexes, join and the optimisation thread; ownership invariant by induction over runs; waits-for chains end in a thread that can move. Deadlock of the weight update with reset exhibited."
  },
  {
   "property": "C41",
   "status": "proved",
   "theorems": [
    "C41_single",
    "C41_stopped",
    "C41_quiet",
    "C41_running",
    "C41_request",
    "C41_ends",
    "C41_two_controllers_refuted"
   ],
   "note": "Phases of the controlling thread as an invariant over all runs; counters of rounds and threads. Needs one controlling thread; two concurrent starts terminate the process (refutation theorem)."
  },
  {
   "property": "C42",
   "status": "proved",
   "theorems": [
    "C42_reset",
    "C42_reset_runs",
    "C42_empty_refuted"
   ],
   "note": "Exact effect; measurements remain (refuted claim of an empty graph)."
  },
  {
   "property": "C43",
   "status": "proved",
   "theorems": [
    "C43_single",
    "C43_radius",
    "C43_converged",
    "C43_many",
    "C43_optimize",
    "C43_descends",
    "C43_gradient",
    "C43_gradient_refuted"
   ],
   "note": "ROPTLIB's manifold operations and solver object are an arbitrary record (Lib), so the theorems hold for every solver behaviour. Single-step mode makes at most 12 runs (the first text of the property said 11: total_steps is tested before it is incremented). Costs are compared through the Num class, so the descent theorem covers NaN by its last hypothesis. The unused gradientDescentLS is not modelled. C43_gradient_refuted: plain gradient descent can raise the cost."
  },
  {
   "property": "C44",
   "status": "proved",
   "theorems": [
    "C44_wellformed",
    "C44_shape",
    "C44_unknown",
    "C44_vertex",
    "C44_blank",
    "C44_short_refuted",
    "C44_count_refuted",
    "C44_trace2",
    "C44_trace3",
    "C44_precision2",
    "C44_precision3",
    "C44_rotation",
    "C44_rotation_refuted",
    "C44_quaternion"
   ],
   "note": "Model: ModelIO.v (read_g2o_file, character by character; operator>> for numbers is a parameter). C44_wellformed over all item lists; C44_shape/unknown/vertex/blank over all texts; precisions over R. Blank lines, truncated lines, ids above 2^53 and non-unit quaternions are findings."
  },
  {
   "property": "C45",
   "status": "proved",
   "theorems": [
    "C45_roundtrip",
    "C45_exact",
    "C45_columns",
    "C45_reads",
    "C45_plane",
    "C45_nothing",
    "C45_directory_refuted",
    "C45_large_id_refuted"
   ],
   "note": "Model: ModelIO.v (logMeasurements, loadMeasurements, Eigen's matrix-to-quaternion and back). Number formatting is a parameter; C45_roundtrip for any rounding, C45_exact over R. Findings: directory ignored on load, ids >= 2^31 throw."
  },
  {
   "property": "C46",
   "status": "proved",
   "theorems": [
    "C46_roundtrip",
    "C46_exact",
    "C46_columns",
    "C46_reads",
    "C46_accepts",
    "C46_rejects",
    "C46_repeated",
    "C46_plane",
    "C46_short_refuted"
   ],
   "note": "Model: ModelIO.v (logTrajectory, loadTrajectory). C46_accepts/C46_rejects characterise loading of arbitrary files. Finding: short rows accepted."
  },
  {
   "property": "C47",
   "status": "proved",
   "theorems": [
    "C47_rotation_cost",
    "C47_translation_cost",
    "C47_matrices_defined"
   ],
   "note": "Both identities, and the matrices exist for measurements of one dimension. Robust weights are not used by this code."
  },
  {
   "property": "C48",
   "status": "proved",
   "theorems": [
    "C48_pose_order",
    "C48_edge_order",
    "C48_hash",
    "C48_edge_kinds"
   ],
   "note": "Orders are strict and total with equality as equivalence; hash agrees on equal ids."
  },
  {
   "property": "C49",
   "status": "proved",
   "theorems": [
    "C49_error_value",
    "C49_error_zero_iff_consistent",
    "C49_error_gauge"
   ],
   "note": "Nonnegative, zero iff consistent, invariant under rigid motion."
  },
  {
   "property": "C50",
   "status": "proved",
   "theorems": [
    "C50_team_status"
   ],
   "note": "Invariant over all histories; the decisions never abort."
  },
  {
   "property": "C51",
   "status": "proved",
   "theorems": [
    "C51_gnc_minimises",
    "C51_majorised",
    "C51_irls_descent"
   ],
   "note": "GNC weight minimises the GNC surrogate; every weight gives a quadratic majoriser of its loss, so decreasing the weighted cost decreases the robust cost."
  },
  {
   "property": "C52",
   "status": "proved",
   "theorems": [
    "C52_neighbours",
    "C52_iterate",
    "C52_weights_refuted",
    "C52_iterate_refuted",
    "C52_flag_refuted"
   ],
   "note": "Every access to the neighbour dictionaries outside weight updates happens with their mutex held. Three races exhibited."
  },
  {
   "property": "C53",
   "status": "proved",
   "theorems": [
    "C53_relaxation",
    "C53_exact"
   ],
   "note": "The sparse QR solver and the SVD are parameters with their contracts as hypotheses (least squares, resp. solution when one exists; singular value decomposition at the blocks met). Exact real arithmetic."
  },
  {
   "property": "C54",
   "status": "proved",
   "theorems": [
    "C54_not_worse",
    "C54_exact"
   ],
   "note": "Costs over exact reals; the trust-region solver is an argument (ro_rtr = true). Duplicated measurements (same pair of poses) beyond the first are dropped by the pose graph, so the comparison is over the kept ones."
  },
  {
   "property": "C55",
   "status": "proved",
   "theorems": [
    "C55_status",
    "C55_no_status",
    "C55_ready",
    "C55_distances",
    "C55_metric",
    "C55_aborts",
    "C55_nan_refuted",
    "C55_nan_distance_refuted",
    "C55_empty_refuted"
   ],
   "note": "Status after iterate, origin of the ready flag over all histories, translation distances as metric; NaN and empty-trajectory findings."
  },
  {
   "property": "C56",
   "status": "proved",
   "theorems": [
    "C56_runs",
    "C56_descends",
    "C56_optimizer",
    "C56_exact",
    "C56_no_odometry_refuted",
    "C56_one_pose_refuted"
   ],
   "note": "Whole main() of MultiRobotExample.cpp after reading the file, over the reals; the optimiser, chordal start, SVD and inverse are parameters with the stated sizes. Descent and exactness are for acceleration off (the program sets it on; with acceleration the printed cost may rise). The _refuted theorems show the aborting sizes."
  },
  {
   "property": "C57",
   "status": "proved",
   "theorems": [
    "C57_plain",
    "C57_accelerated",
    "C57_restart_success_refuted"
   ],
   "note": "Every history and scalar type; the optimiser and the SVD are arbitrary functions. The dropped failure at a restart is shown by a concrete history."
  },
  {
   "property": "C58",
   "status": "proved",
   "theorems": [
    "C58_rounds",
    "C58_judged",
    "C58_exact",
    "C58_infinite_mu_refuted"
   ],
   "note": "the inner solver is an arbitrary function in C58_rounds and C58_judged; C58_exact uses the modelled solvePGO without initial guess; the refutation is over the extended reals"
  },
  {
   "property": "C59",
   "status": "proved",
   "theorems": [
    "C59_values",
    "C59_self_assignment",
    "C59_self_assignment_refuted",
    "C59_vector",
    "C59_vector_copy_refuted"
   ],
   "note": "Programs over any number of variables, heap model against values; self-assignment and the copied tangent vector are the two counterexamples. ROPTLIB copy-on-write sharing is not modelled."
  },
  {
   "property": "C60",
   "status": "proved",
   "theorems": [
    "C60_angle",
    "C60_candidates",
    "C60_two_stage",
    "C60_consistent",
    "C60_enters",
    "C60_residual",
    "C60_one_stage"
   ],
   "note": "Candidates, two-stage and one-stage results for arbitrary evidence; angle threshold exact; Eigen SVD contract only at the averaged sums."
  },
  {
   "property": "C61",
   "status": "proved",
   "theorems": [
    "C61_single",
    "C61_single_exact",
    "C61_chordal",
    "C61_chordal_exact",
    "C61_gnc",
    "C61_gnc_exact",
    "C61_no_odometry_refuted",
    "C61_order_refuted",
    "C61_repeated_refuted"
   ],
   "note": "The three single-robot example programs composed from the modelled library; two findings on accepted datasets and one on the printed cost."
  },
  {
   "property": "C62",
   "status": "proved",
   "theorems": [
    "C62_transparent",
    "C62_only_logs",
    "C62_who_writes",
    "C62_measurements",
    "C62_trajectory",
    "C62_no_trajectory",
    "C62_iterate",
    "C62_plane_refuted",
    "C62_initial",
    "C62_stale_refuted",
    "C62_shared_directory_refuted"
   ],
   "note": "Equivalence of the plain and the logging agent over all histories; frame conditions; contents through the loaders, exact at formats exact on the numbers written. Three parts of the natural claim are false and refuted."
  },
  {
   "property": "C63",
   "status": "proved",
   "theorems": [
    "C63_distribution",
    "C63_defined",
    "C63_threshold",
    "C63_agents",
    "C63_monotone",
    "C63_tls",
    "C63_gnc",
    "C63_one_stage",
    "C63_keep_all_refuted",
    "C63_monotone_refuted",
    "C63_dimension_refuted"
   ],
   "note": "over exact reals; boost quantile by contract chi2inv_ok, shown satisfiable; keep-all at quantile 1, monotonicity at 1 over the reals and the dimension check refuted"
  },
  {
   "property": "C64",
   "status": "proved",
   "theorems": [
    "C64_cache",
    "C64_status",
    "C64_terminate",
    "C64_terminate_now_refuted",
    "C64_pass",
    "C64_latest_refuted",
    "C64_weights",
    "C64_weights_refuted"
   ],
   "note": "Agents of ModelAgent.v with a network that may delay, lose, repeat and reorder; invariant over executions composing the single-agent history theorems. Three stronger readings are refuted with concrete executions."
  },
  {
   "property": "C65",
   "status": "proved",
   "theorems": [
    "C65_descends",
    "C65_parallel",
    "C65_parallel_refuted",
    "C65_rounds"
   ],
   "note": "Over the reals; the optimiser is any function that keeps the size of its argument and does not raise the cost; refutation with a concrete team of three robots."
  },
  {
   "property": "C66",
   "status": "proved",
   "theorems": [
    "C66_agree",
    "C66_round",
    "C66_rounds",
    "C66_reset_refuted"
   ],
   "note": "rounds with a constant annealing parameter; refuted when restarts are left"
  },
  {
   "property": "C67",
   "status": "proved",
   "theorems": [
    "C67_fresh",
    "C67_rest",
    "C67_weight_refuted",
    "C67_anchor_refuted",
    "C67_prior_refuted",
    "C67_reinit_refuted",
    "C67_robust_refuted"
   ],
   "note": "Proved for all histories without an unmended spoiling call; refuted for the quadratic matrix after each of the five spoiling calls (findings)."
  },
  {
   "property": "C68",
   "status": "proved",
   "theorems": [
    "C68_new_prior",
    "C68_replaced_prior",
    "C68_bounded",
    "C68_unbounded",
    "C68_agent"
   ],
   "note": "Value after a late prior, harmless replacement, bound with fresh matrices, and unboundedness with the late prior, also for an agent anchored after an iteration (a finding)."
  },
  {
   "property": "C69",
   "status": "proved",
   "theorems": [
    "C69_lines",
    "C69_rest",
    "C69_determines",
    "C69_size_refuted",
    "C69_digits_refuted"
   ],
   "note": "Lines of the file, frame, injectivity up to text, and the two losses (size, digits)."
  }
 ]
}