# Formal model of mit-acl/dpgo: design

Everything is in `rocq/theories` (Coq 8.16.1, logical name `Verif`).  The C++ sources in `/repo`
are read as text; each definition of a `Model*.v` file cites the file and lines it represents.

## 1. Shape of the model

* **Outcomes.** A C++ call ends in `Ok v`, in `Abort` (glog `CHECK`/`LOG(FATAL)`, or an uncaught
  exception such as `bad_optional_access`, `out_of_range`) or in `UB` (out-of-bounds access, double
  `insert` into a sparse matrix, division by zero of integers, ...).  The two bad outcomes are
  distinct constructors, so "returns normally" is never true by default.
* **Integers.** Robot and pose ids are `N`; conversions from `size_t` to `unsigned` are explicit
  (`mod 2^32`), and so is unsigned addition where the code adds (`p + 1`).
* **Numbers.** Numeric code is written once over a record of scalar operations (`Num S`).  It is used with
  - `R` (the Coq reals) for code without division or with guarded division (matrices, poses, cost);
  - `XR`, reals extended with `+inf`, `-inf`, `NaN` and IEEE comparison rules, for code in which
    `x/0`, `inf` and `NaN` decide the control flow (ratios, `mu` initialisation, robust weights);
  - `PrimFloat` binary64 for concrete counterexamples that depend on rounding.
  Rounding is *not* modelled in the theorems over `R`/`XR`.
* **Matrices** are functions `nat -> nat -> S` with explicit row/column numbers, flat indices as in the code
  (`i*(d+1)+c`), sparse matrices are triplet lists.
* **Containers.** `std::vector` = list, `std::set`/`std::map` = strictly sorted association lists
  (iteration order is the C++ one), `std::unordered_map` = the same (its order is never observed).
* **Externals** (SVD, Cholesky, SPQR, ROPTLIB solvers, chordal solve, text-to-number conversion,
  quaternion conversion) are arguments of the model functions.  Theorems quantify over them;
  hypotheses on them (e.g. "is a singular value decomposition") are visible in the statement.
* **Threads.** API calls are sequences of lock/unlock/access steps; threads interleave step by step.

## 2. Files

| file | content |
|---|---|
| `Base.v`, `SMap.v` | outcomes, wrap-around arithmetic, sorted maps |
| `Num.v`, `NumFloat.v` | scalar operations: reals, extended reals, integers; binary64 |
| `RSum.v`, `Det.v`, `MatR.v` | finite sums, determinants, orthogonal matrices (own lemmas, no library) |
| `ModelTypes.v` | ids, measurements (`DPGO_types.h`, `RelativeSEMeasurement.h`) |
| `ModelPoseGraph.v` | `PoseGraph.cpp`, connection Laplacian of `DPGO_utils.cpp` |
| `ModelProblem.v` | `QuadraticProblem.cpp`, `computeMeasurementError` |
| `ModelOptimizer.v` | `QuadraticOptimizer.cpp` (trust region wrapper, gradient descent) |
| `ModelRobust.v` | `DPGO_robust.cpp` |
| `ModelPoses.v` | `manifold/Poses.cpp` |
| `ModelSolver.v` | averaging, projections, odometry initialisation, robust solver of `DPGO_solver.cpp` |
| `ModelChordal.v`, `ModelInit.v` | `constructBMatrices`, `recoverTranslations`, `chordalInitialization`, `solvePGO` |
| `ModelAgent.v` | `PGOAgent.cpp`, sequential semantics of every call |
| `ModelThreads.v` | mutexes, join, the optimisation thread; interleaving semantics |
| `ModelIO.v` | `read_g2o_file`, `PGOLogger.cpp` |
| `ModelVariable.v` | `manifold/LiftedSEVariable.cpp`, `LiftedSEVector.cpp`: Eigen views of ROPTLIB memory |
| `ModelAlign.v` | `angular2ChordalSO3`, `computeRobustNeighborTransform` |
| `ModelExample.v`, `ModelExampleRun.v` | `examples/MultiRobotExample.cpp` |
| `ModelLog.v` | `writeMatrixToFile`, and the logging calls in `reset` and `initializeInGlobalFrame` |
| `ModelSparseFile.v` | `writeSparseMatrixToFile` |
| `ModelTeam.v` | several agents and the network between them (the library leaves the transport to its users) |
| `ModelPrograms.v` | the other three programs in `examples/`; `localPoseGraphOptimization` |
| `Spec*.v` | small specifications, independent of the model's helpers |
| `Proofs*.v` | lemmas; `Proofs*Ex.v`, `ProofsPGCex.v` concrete cases and counterexamples |
| `Prop*.v` | the property theorems only, each closed by `exact`, each followed by `Print Assumptions`, with examples showing that the hypotheses can be met |

## 3. Per property: what is modelled and how it is proved

The text of each property is in `properties.jsonl`; theorem names start with the property's id.
"History" means any list of calls, of any length.

**Pose graph (C01-C09, C48; `ModelPoseGraph.v`, `SpecPoseGraph.v`, `SpecPGHist.v`).**
The graph is a record with the three measurement lists, the index map, the public/neighbour sets, the activity
table, the caches `Q_`, `G_`, preconditioner, priors, neighbour poses.  The specification is a history
recorder (what was handed in since the last clearing, who was switched on) plus filters and "first
occurrence".  Invariants by induction over the list of calls.
C07 is an invariant "cache present implies equal to what a fresh construction returns", for histories that clear the
cache after changing its inputs; four counterexamples show that each clause is needed.
C08/C09: success and sparse writes, `SparseMatrix::insert` on an occupied place and out-of-range writes are `UB`.

**Cost (C10-C15, C47, C49; `ModelProblem.v`, `SpecCost.v`).** `Q_` is assembled as in the code (incidence matrix, diagonal
precision, `A Omega A^T`, plus diagonal blocks for shared edges and priors) and shown equal, as a quadratic form, to the plain
sum of squares.  C11 is an exact second-order expansion.  C12 proves `Q` positive semidefinite and
the Cholesky factor of the regularised matrix exists.  C15: the change of a robot's local cost equals the change of the team's
cost when its cached poses are current; induction over the schedule.

**Example program (C16; `ModelExample.v`).** Index arithmetic of the partition loops, distribution of edges, cutting and
reassembling of the trajectory, and the connection to the agent's `setMeasurements` and to C15.

**Robust costs (C17-C19, C51; `ModelRobust.v`).** Weights over the extended reals (infinities, NaN, IEEE comparisons),
after any sequence of `update`/`reset`; the GNC counter is 64 bits wide.  C51: real analysis of the losses (Black-Rangarajan
duality), giving descent of the robust cost.

**Averaging and projections (C20-C24; `ModelSolver.v`).** Loops over lists, SVD as an argument with hypothesis `is_svd` at the matrix in question.
Closest rotation via orthogonality, determinants and an exchange argument.  C23/C24 by invariants of the reweighting loop; exactness of the inlier set from the convergence test and the growth of mu.

**Poses (C26-C28; `ModelPoses.v`).** Block reads and writes of one matrix.  Pose algebra in any dimension; Eigen's `inverse` is an argument.

**Agent (C25, C32-C39, C42, C50; `ModelAgent.v`, `SpecAgent.v`).** All member functions as state changes; `areach x id p os a` says that the
calls `os` lead to `a`.  Optimiser, averaging and local solvers are arguments (`Ext`), so the theorems hold whatever they return.
C34, C35, C36, C42 compare the agent with functions of the history only.  C38: the positive solution of
`N g'^2 - g' = N g^2` is unique and is what `updateGamma` computes.

**Frames and export (C29-C31).** Rigid-motion algebra on top of the agent model.

**Optimiser (C43; `ModelOptimizer.v`).** ROPTLIB is a record of functions (`Lib`); the retry loop of the trust-region wrapper is a fuel loop whose
exhaustion is impossible by the loop's own counter.

**Files (C44-C46; `ModelIO.v`).** Texts are lists of characters, split as the C++ streams do; text forms of numbers are parameters with a
round-trip hypothesis; Eigen's quaternion formulas are written out and compared with Hamilton's product. `SpecIO2.v` gives the log files as tables with named columns.

**Threads (C40, C41, C52; `ModelThreads.v`).** Each call is a set of lock/unlock/read/write/join sequences; any number of threads interleave.  Ownership and
phase invariants by induction over runs; deadlock freedom by following the waits-for relation upwards in the lock order.

**Chordal initialisation (C53; `ModelInit.v`).** The sparse QR solver is an argument with its contract (least squares) at the
two matrices it is called on; with the identities of C47 the relaxed solution minimises the rotation cost.  Exactness: the noise-free system has one
solution, by induction along paths of measurements.

**Centralised solver (C54; `ModelInit.v`).** The pose graph built by `setMeasurements` from a single-robot list is computed (it holds the first
measurement of every pair of poses), its objective is half the plain sum of squares minus a constant, and the optimiser of C43 cannot raise it.
Exactness: cost 0 forces every kept measurement to hold exactly, then induction along paths.

**Published status (C55; `ModelAgent.v`, `ModelPoses.v`, `SpecStatus.v`).** What one iteration publishes is read off the model for every scalar type; the origin of a ready flag
is an invariant over histories.  The distances are compared with maxima and means of Euclidean norms over the reals (own Cauchy-Schwarz and triangle inequality).
The NaN finding is computed in binary64.

**One iteration (C57; `ModelAgent.v`, `SpecAgent.v`, proofs in `ProofsIterate.v`).** `optimised` says on which graph, neighbour
poses and starting point the optimiser was called and that X is what it returned; `projected` says which matrix was put
back on the manifold. The optimiser and the SVD are arbitrary functions; C22 and C54 say what the projection and the modelled
optimiser do, C38 what gamma and alpha are.

**Robust pose graph optimisation (C58; `solveRobustPGO` in `ModelSolver.v`, `SpecRobustPgo.v`).** The inner solver is any function; `gnc_rounds` is an
inductive relation giving the measurements after k rounds, with the weight formula written out again. The loop of the model follows it by
induction on the remaining iterations; the verdicts use the analysis behind C17 and C23. `C58_exact` instantiates the solver with the modelled `solvePGO`
and C54. The infinite control parameter is shown over the extended reals.

**Views of ROPTLIB variables (C59; `ModelVariable.v`, `SpecVariable.v`).** A heap of blocks with written and unwritten cells; a variable owns a block, the Eigen map and
ROPTLIB's product factors address the same cells by their own formulas. Any program over any number of variables is compared, by induction over its operations,
with a store that holds poses by value. ROPTLIB's copy-on-write sharing between elements is left out (no element is copied by the modelled classes without `getData`/`setData`).

**Joining a neighbour's frame (C60; `ModelAgent.v`, `ModelAlign.v`, `SpecAlign.v`).** Angles between rotations are specified by plane rotations and Rodrigues' formula;
existence of the axis (3D) is derived from the rotation's entries, the chordal distance is 8 sin^2(t/2), so the threshold compares angles. The candidates are specified by
"the measurement holds afterwards" (`joined`), not by the code's products. The averaging results C22-C24 are applied to the candidates; the Eigen contracts are
assumed only for the positive combinations of these candidates (`averages_ok`). `computeRobustNeighborTransform` is never called in the library.

**The single-robot programs (C61; `ModelPrograms.v`).** `main()` of the other three examples after `read_g2o_file`, built from the modelled parts. The printed cost is
compared with the cost of the dataset by the cost identity (C15), the agent of the first program by the start-up analysis behind C56, the solver by C54 and C58.
The exact cases need the QR contract only where the chordal guess is used; from the odometry start none is needed. Command-line handling is left out.

**The log files of an agent (C62; `ModelLog.v`).** The agent of `ModelAgent.v` beside a file system: `reset` logs before it clears, `initializeInGlobalFrame` logs the transformed
local trajectory. A call that aborts leaves no trace of files it may have written before. `C62_transparent` is an equivalence over histories between the plain and the logging agent;
`C62_only_logs` and `C62_who_writes` say what does not change; the contents are stated through the loaders (C45, C46): what comes back is the measurement list, the trajectory rounded at the
anchor (specification of C31), the trajectory whose lift is the iterate. `X.txt` is stated by lines and texts of coefficients; Eigen's `FullPrecision` text is a parameter.

**The file of a sparse matrix (C69; `ModelSparseFile.v`, `SpecSparseFile.v`).** A sparse matrix is a number of columns and, per row (the type
is row-major), the stored entries in iteration order; `sparse_ok` is Eigen's invariant on them. The text form of doubles is a parameter. The
entries of a file are characterised by `stored` (membership) and `before` (order), not by the loops. `C69_determines` uses that a decimal
number has no comma and determines the number. No code in the repository calls the function.

**The error threshold at a quantile (C63; `errorThresholdAtQuantile` in `ModelRobust.v`).** `SpecQuantile.v` gives the chi-squared density with six degrees of freedom and
"the mass up to x is q" as a Riemann integral; boost's quantile is any function delivering such an x. The integral is evaluated by the fundamental theorem, so the contract
can be met, the threshold is unique, and the value at 0.9 is enclosed (3.16 to 3.32) without trusting boost. The weights (C17) and the one-stage averaging (C60) are then stated by mass.
That this density is the one of a sum of six squared normal variables is not proved.

**A team of agents (C64; `ModelTeam.v`, `SpecTeam.v`).** Any number of agents of `ModelAgent.v` with the messages the example program passes between them (public poses, auxiliary
poses, statuses). The network keeps every message; each step is a call of one robot, a sending, or the delivery of any message ever sent to any robot, so delay, loss, repetition and
reordering are all covered. `once` says that a robot satisfied something at some prefix of the execution. One invariant over executions (`tinv`) ties every agent to a
history in the sense of C32-C39 whose incoming messages are all in the network and whose states were all states of the team; the theorems then compose the single-agent ones
(C33 for what is sent, C36 for what is kept, C34 and C55 for termination, C25 for weights) across robots.

**Descent in a team (C65; `SpecDescent.v`).** Executions of `ModelTeam.v` from a state in which every robot is
initialised, unaccelerated and stores its part of a dataset (`member`); `careful` is the discipline on the schedule:
an optimising step is taken only while the robot's cache is up to date (`uptodate`), with an optimiser that does not
raise the cost of the problem handed to it. Proved by an invariant (the pose graphs keep the dataset and coherent data
matrices) and C15's identity between a robot's change of its own cost and the team's; `C65_parallel` and `C65_rounds`
show that two natural families of schedules meet the discipline. The optimiser is any function here; C54 is about the
optimiser of the code.

**Robust cost of a team (C66; `SpecReweight.v`).** The same executions with calls of `updateMeasurementWeights`. The robust
cost of the dataset is a function of the residuals at the team's estimates only (`robust_team_cost`: C51's loss for loop
closures whose weight is not fixed, half the weighted square for the others, plus priors). In a round all robots, in any order,
update their weights with up-to-date caches and then work `careful`ly. Proved by composing C25 (which weights are stored), the
equality of a robot's residual with that of the team's estimates, the majorisation of the loss by the weighted square (C51) and
C65. `off_zero` is needed for the cost L1 alone, whose weight 1/r has no value at 0. The claim is for robots with no restarts left
(`p_nreset <= a_trc`); `C66_reset_refuted` shows that it fails otherwise. For GNC the cost changes with mu, so `C66_rounds` is for stretches on which mu is
constant (in particular after the last annealing step); `C66_round` holds at every mu for the round itself.

**Current matrices (C67; `SpecData.v`).** At the level of agents: is the Q handed to the optimiser the one of the present weights and
priors? "Fresh" is stated with the accessors themselves on the graph with the stored matrix removed. The theorem is an extensionality statement: two
optimisers that agree on all graphs with the agent's data, received poses and fresh matrices give the same result of `iterate`, of a thread
pass and of a restart (`C67_fresh`), so no other graph is ever handed over; `same_data` compares every field except the pose copy, the two
matrices and the preconditioner. `spoilt` follows the history with one flag (set by the calls of `spoils`, cleared by those of `renews`: reset, reweighting, switching a neighbour on or off). The proof carries `J` (matrices absent unless INITIALIZED; if
not spoilt, the stored Q is `Qfull` of the data) through all 26 calls. `C67_rest` drops the condition on the history and the quadratic
matrix. The five `C67_*_refuted` theorems give, for each spoiling call, a history on which an optimiser that compares the first entry of Q
with a rebuilt one behaves differently.

**A prior that comes late (C68; `SpecLate.v`).** What the stale matrix of C67 means for the cost. `late g i P D g'` is the sequence of the
three calls (build, `setPrior`, `setNeighborPoses`); `prior_pull` is the weighted inner product written as a sum. `C68_new_prior` computes
the value `qp_f` returns from the stored Q (without the prior) and the G built afterwards (with it), `C68_replaced_prior` that replacing a
prior is harmless because Q does not depend on the prior's value (`reprior` says that the graph has the new prior and keeps the others), `C68_bounded` that the cost of fresh matrices is bounded below, and
`C68_unbounded` that the cost after a late prior is not, along common translations of any trajectory.
`C68_agent` carries this to an agent after any history without a stale matrix (`spoilt` of C67 false): after `anchorFirstPose` in either form
(`anchoring`), `updateX` depends on the optimiser only through its answers on one graph, and the cost of that graph is unbounded below
(`ProofsLate2.v`). Proved from the forms of Q and G in
`ProofsCost.v` and the gauge invariance used for C13. The restriction `pg_useinact g = false` is needed because otherwise handing over
other neighbour poses changes Q as well (C07).

**The example program as a whole (C56; `ModelExampleRun.v`, `SpecRun.v`).** `main()` after `read_g2o_file`: the
central problem, the split, one agent per robot, the lifted chordal start, the loop with its prints, the final reset.
Console output is the list of lines. The loop is followed by an invariant (every robot's graph stays what
`setMeasurements` built, its trajectory is its part of the joint one, a cached neighbour pose is the neighbour's
present pose); the local costs are related to the dataset's cost as in C15, so a step that does not raise the
selected robot's cost does not raise the printed one. `SpecRun.printed` states what the lines must be without using the model's loop. The
optimiser is any function returning a matrix of the right size; `C56_optimizer` shows that the modelled wrapper is
one. Descent needs acceleration off. The two `assert`s of lines 175-176 are treated as checks (and never fail).

## 4. Trusted base

* Coq's kernel, including its virtual machine (`vm_compute` in examples and some decision steps).
* What `Print Assumptions` lists (section 5).
* The reading of the C++ recorded in the comments of `Model*.v`: control flow, conversions, checks, order of effects.
* Arithmetic: theorems about numbers are over exact reals (or extended reals); binary64 rounding occurs only in `C17_float_refuted`.
  Theorems quantified over `Num S` make no assumption on the arithmetic at all and so also hold for binary64.
* Parameters standing for libraries, with their contracts visible as hypotheses:
  Eigen SVD (`is_svd`/`svd_at`), determinant, `Matrix::inverse`, Cholesky (`chol_ok`), SPQR (`least_squares`, `solves_if_possible`);
  ROPTLIB projection, retraction and solver object (`Lib`, unconstrained); number scanning and printing; `boost::hash_combine`.
* Eigen's quaternion-matrix conversions are transcribed from Eigen 3.3 (`ModelIO.v`).
* `std::unordered_map` iteration order is only used where the result does not depend on it.

**Not modelled**: timers, console output and `LOG`; `randomStiefelVariable` and the fixed one's entries
(an arbitrary matrix; orthonormality is a hypothesis where needed); boost's quantile behind `chi2inv` (`chi2inv_ok`, C63);
`QuadraticOptimizer::gradientDescentLS` (never called);
ROPTLIB's copy-on-write sharing of element memory;
sleeping times of the optimisation thread (its random interval is arbitrary); C++11 memory model beyond data races on named fields; memory exhaustion.

## 5. Print Assumptions

<!-- assumptions -->
Every theorem in a `Prop*.v` file is followed by `Print Assumptions`.  The output, grouped:

* **Closed under the global context** (148 theorems):
  `C01_duplicate_ignored`, `C01_irrelevant_ignored`, `C01_malformed_aborts`, `C01_store_any_history`,
  `C01_store_exact`, `C02_lookup_exact`, `C02_wrapping_ids_refuted`, `C03_num_poses`,
  `C03_num_poses_monotone`, `C03_wrap_refuted`, `C04_neighbour_sets`, `C05_activity_history`,
  `C05_partition`, `C05_set_active_effect`, `C07_cache_coherent`, `C07_cleared`, `C07_stale_add_refuted`,
  `C07_stale_inactive_refuted`, `C07_stale_prior_refuted`, `C07_stale_weight_refuted`,
  `C08_construct_success`, `C08_construct_success_disciplined`, `C09_last_shared_refuted`,
  `C09_no_private_refuted`, `C09_self_edge_refuted`, `C09_shape`, `C09_undefined`, `C16_bijection`,
  `C16_edges`, `C16_no_odometry_refuted`, `C16_placed`, `C16_reassemble`, `C16_stored`, `C16_tile`,
  `C25_fixed_kept`, `C25_reset_exact`, `C25_solveRobustPGO_fixed`, `C25_solveRobustPGO_refuted`,
  `C25_update_exact`, `C25_update_rest`, `C28_defined`, `C28_layout`, `C28_out_of_range`, `C28_parts`,
  `C32_counters`, `C32_step`, `C33_aux_getters`, `C33_aux_with_neighbor_refuted`, `C33_getters`,
  `C34_after_reset`, `C34_terminate`, `C35_update_weights`, `C36_cache`, `C36_only_required`,
  `C36_own_robot`, `C36_wrong_robot`, `C37_fail`, `C37_still`, `C38_state`, `C38_step`, `C39_restart`,
  `C39_zero_interval`, `C40_deadlock_refuted`, `C40_order`, `C40_order_refuted`, `C40_order_thread`,
  `C40_progress`, `C41_ends`, `C41_quiet`, `C41_request`, `C41_running`, `C41_single`, `C41_stopped`,
  `C41_two_controllers_refuted`, `C42_empty_refuted`, `C42_reset`, `C42_reset_runs`, `C43_converged`,
  `C43_descends`, `C43_gradient`, `C43_gradient_refuted`, `C43_many`, `C43_optimize`, `C43_single`,
  `C44_blank`, `C44_count_refuted`, `C44_shape`, `C44_short_refuted`, `C44_unknown`, `C44_vertex`,
  `C44_wellformed`, `C45_directory_refuted`, `C45_large_id_refuted`, `C45_nothing`, `C45_plane`,
  `C45_roundtrip`, `C46_accepts`, `C46_plane`, `C46_rejects`, `C46_repeated`, `C46_roundtrip`,
  `C46_short_refuted`, `C48_edge_kinds`, `C48_edge_order`, `C48_hash`, `C48_pose_order`, `C50_team_status`,
  `C52_flag_refuted`, `C52_iterate`, `C52_iterate_refuted`, `C52_neighbours`, `C52_weights_refuted`,
  `C55_aborts`, `C55_no_status`, `C55_ready`, `C55_status`, `C57_accelerated`, `C57_plain`,
  `C57_restart_success_refuted`, `C59_self_assignment`, `C59_self_assignment_refuted`, `C59_values`,
  `C59_vector`, `C59_vector_copy_refuted`, `C62_only_logs`, `C62_shared_directory_refuted`,
  `C62_stale_refuted`, `C62_transparent`, `C62_who_writes`, `C64_cache`, `C64_latest_refuted`, `C64_pass`,
  `C64_status`, `C64_terminate`, `C64_terminate_now_refuted`, `C64_weights_refuted`, `C67_anchor_refuted`,
  `C67_fresh`, `C67_prior_refuted`, `C67_reinit_refuted`, `C67_rest`, `C67_robust_refuted`,
  `C67_weight_refuted`, `C69_determines`, `C69_digits_refuted`, `C69_lines`, `C69_rest`, `C69_size_refuted`.

* **The axioms of Coq's real numbers** `ClassicalDedekindReals.sig_forall_dec`,
  `ClassicalDedekindReals.sig_not_dec` and `FunctionalExtensionality.functional_extensionality_dep`
  (141 theorems):
  `C06_statistics`, `C06_statistics_nonfinite`, `C10_cost_defined`, `C10_cost_identity`, `C11_derivatives`,
  `C11_derivatives_defined`, `C12_factorised_matrix`, `C12_psd_cholesky`, `C13_gauge_invariance`,
  `C14_lifting_cost`, `C14_unlift`, `C15_descent`, `C15_local_change_is_central_change`, `C16_cost`,
  `C16_knows`, `C16_selection`, `C17_L1_refuted`, `C17_weights_in_unit`, `C18_gnc_pieces`,
  `C18_weights_monotone`, `C19_eventually_tls`, `C19_reset`, `C19_schedule`, `C19_schedule_monotone`,
  `C19_wrap_refuted`, `C20_translation_average`, `C21_closest_rotation`, `C21_rotation_average`,
  `C22_closest_stiefel`, `C22_trajectory`, `C22_wide_aborts`, `C23_pose_complete`, `C23_pose_inliers`,
  `C23_rotation_complete`, `C23_rotation_inliers`, `C23_zero_threshold_refuted`, `C24_pose_weights`,
  `C24_rotation_weights`, `C25_residual`, `C26_chain_any`, `C26_chain_exact`, `C26_overread_refuted`,
  `C26_partial_trajectory`, `C27_acts`, `C27_associative`, `C27_identity`, `C27_inverse`,
  `C27_product_rigid`, `C27_unit`, `C28_pose`, `C28_rotation`, `C28_translation`, `C29_residual`,
  `C29_transform`, `C30_enter`, `C30_local`, `C31_exact`, `C31_global`, `C31_local`, `C31_local_refuted`,
  `C31_neighbour`, `C31_none`, `C31_pose`, `C38_sequence`, `C38_state_real`, `C38_wrap_refuted`,
  `C43_radius`, `C44_precision2`, `C44_precision3`, `C44_quaternion`, `C44_rotation`, `C44_rotation_refuted`,
  `C44_trace2`, `C44_trace3`, `C45_columns`, `C45_exact`, `C45_reads`, `C46_columns`, `C46_exact`,
  `C46_reads`, `C47_matrices_defined`, `C47_rotation_cost`, `C47_translation_cost`, `C49_error_gauge`,
  `C49_error_value`, `C49_error_zero_iff_consistent`, `C51_gnc_minimises`, `C51_irls_descent`,
  `C51_majorised`, `C53_exact`, `C53_relaxation`, `C54_exact`, `C54_not_worse`, `C55_distances`,
  `C55_empty_refuted`, `C55_metric`, `C55_nan_distance_refuted`, `C56_descends`, `C56_exact`,
  `C56_no_odometry_refuted`, `C56_one_pose_refuted`, `C56_optimizer`, `C56_runs`, `C58_exact`,
  `C58_infinite_mu_refuted`, `C58_judged`, `C58_rounds`, `C60_candidates`, `C60_enters`, `C60_residual`,
  `C61_chordal`, `C61_chordal_exact`, `C61_gnc`, `C61_gnc_exact`, `C61_no_odometry_refuted`,
  `C61_order_refuted`, `C61_repeated_refuted`, `C61_single`, `C61_single_exact`, `C62_initial`,
  `C62_iterate`, `C62_measurements`, `C62_no_trajectory`, `C62_plane_refuted`, `C62_trajectory`,
  `C63_defined`, `C63_keep_all_refuted`, `C64_weights`, `C65_descends`, `C65_parallel`,
  `C65_parallel_refuted`, `C65_rounds`, `C66_agree`, `C66_reset_refuted`, `C66_round`, `C66_rounds`,
  `C68_agent`, `C68_bounded`, `C68_new_prior`, `C68_replaced_prior`, `C68_unbounded`.

* The same without `sig_not_dec` (1): `C19_band_shrinks`.

* `C60_angle`, `C60_consistent`, `C60_one_stage`, `C60_two_stage`, `C63_agents`, `C63_dimension_refuted`,
  `C63_distribution`, `C63_gnc`, `C63_monotone`, `C63_monotone_refuted`, `C63_one_stage`, `C63_threshold`,
  `C63_tls`:
  the axioms of Coq's real numbers and excluded middle: `ClassicalDedekindReals.sig_forall_dec`, `ClassicalDedekindReals.sig_not_dec`, `Classical_Prop.classic`, `FunctionalExtensionality.functional_extensionality_dep`.

* `C17_float_refuted`, `C55_nan_refuted`:
  primitive operations of the kernel: `PrimFloat.add`, `PrimFloat.div`, `PrimFloat.eqb`, `PrimFloat.float`, `PrimFloat.leb`, `PrimFloat.ltb`, `PrimFloat.mul`, `PrimFloat.of_uint63`, `PrimFloat.opp`, `PrimFloat.sqrt`, `PrimFloat.sub`, `PrimInt63.int`, `PrimInt63.lor`, `PrimInt63.lsl`, `PrimInt63.sub`.

All of these come with the Coq standard library.  No axiom, parameter or unfinished proof of our own.
<!-- end assumptions -->

## 6. Findings

Claims one would expect from the documentation and that are false of the code, each with a theorem giving a witness:

| theorem | what happens |
|---|---|
| `C02_wrapping_ids_refuted`, `C03_wrap_refuted` | ids at or above 2^32-1 alias other edges / leave `n()` at 0 |
| `C07_stale_*_refuted` | `setPrior`, `addMeasurement`, weight writes and `useInactiveNeighbors` do not clear `Q_`/`G_` |
| `C09_no_private_refuted`, `C09_last_shared_refuted`, `C09_self_edge_refuted` | matrix construction indexes outside or inserts twice |
| `C16_no_odometry_refuted` | a robot without odometry drops all its shared edges |
| `C17_L1_refuted`, `C17_float_refuted` | L1 weight is infinite at 0; GNC weight exceeds 1 by rounding |
| `C19_wrap_refuted` | iteration counter wraps |
| `C22_wide_aborts` | Stiefel projection of a wide matrix |
| `C23_zero_threshold_refuted` | with threshold 0 non-inliers are reported |
| `C25_solveRobustPGO_refuted` | `solveRobustPGO` overwrites fixed weights with 1 |
| `C26_overread_refuted` | odometry initialisation reads past the list |
| `C31_local_refuted` | local-frame export subtracts an already overwritten translation (aliasing `Eigen::Ref`) |
| `C33_aux_with_neighbor_refuted` | `getAuxSharedPoseDictWithNeighbor` aborts without acceleration |
| `C34_after_reset` | after `reset` the termination test is vacuous |
| `C38_wrap_refuted` | `2 * numRobots` wraps to 0 at 2^31 robots |
| `C39_zero_interval` | restart interval 0 divides by zero |
| `C40_deadlock_refuted`, `C40_order_refuted` | weight update with trajectory reset takes the mutexes in the opposite order |
| `C41_two_controllers_refuted` | two concurrent starts overwrite a running `std::thread` |
| `C42_empty_refuted` | `reset` keeps all measurements |
| `C43_gradient_refuted` | gradient descent can raise the cost |
| `C44_*_refuted`, `C44_blank` | blank and truncated lines repeat or corrupt measurements; ids above 2^53 lose digits; non-unit quaternions give no rotation |
| `C45_directory_refuted`, `C45_large_id_refuted` | the log directory is ignored on load; ids from 2^31 throw |
| `C46_short_refuted` | short rows are accepted |
| `C52_*_refuted` | three data races |
| `C55_nan_refuted`, `C55_nan_distance_refuted` | `std::max(max, NaN)` keeps `max`: an iterate of NaNs counts as unchanged and the agent reports ready |
| `C55_empty_refuted` | the average translation distance of no poses is 0/0 |
| `C57_restart_success_refuted` | at a restart iteration the failure of the second optimisation (neighbour pose missing) is dropped: X stays, `iterate` returns true and the agent publishes ready |
| `C58_infinite_mu_refuted` | `solveRobustPGO` has no upper limit on the initial mu: when twice the largest squared residual equals the squared threshold it is infinite and every weight becomes NaN |
| `C59_self_assignment`, `C59_self_assignment_refuted` | `LiftedSEVariable::operator=` frees and reallocates its own memory before it reads the right-hand side: `x = x` reads uninitialised memory |
| `C59_vector_copy_refuted` | `LiftedSEVector` owns raw pointers and has a destructor but the compiler's copy constructor and assignment: a copied vector is released twice |
| `C61_no_odometry_refuted`, `C61_order_refuted` | `SingleRobotExample` and `SingleRobotGNCExample` abort on connected datasets without odometry edges and on datasets whose odometry lines are out of order |
| `C62_stale_refuted`, `C62_measurements` | log files of an earlier session stay: `trajectory_optimized.csv` if no anchor was set again (`reset` clears it), `measurements.csv` if the agent has no measurement |
| `C62_shared_directory_refuted` | log names carry no robot id: robots with one directory (the default) overwrite each other |
| `C62_plane_refuted` | resetting a planar agent empties `measurements.csv` |
| `C63_keep_all_refuted` | a quantile of 1 or more gives the threshold 1e5, so larger residuals are still rejected |
| `C63_monotone_refuted` | over the reals the threshold just below 1 exceeds the one at 1 (not for doubles, `C63_monotone`) |
| `C63_dimension_refuted` | the dimension check casts to `int`: 3 + 2^32 passes |
| `C64_terminate_now_refuted` | a robot stops although another has moved since it reported to be ready; statuses carry iteration numbers that are never compared |
| `C64_latest_refuted` | pose messages carry no sequence number: an older one delivered late replaces a newer pose |
| `C64_weights_refuted` | two robots that update at different moments hold different weights for the edge they share |
| `C66_reset_refuted` | with restarts left (`robustOptNumResets`), updating the weights returns a robot to its initial guess however good its estimate is, and the robust cost of the dataset can rise (in the case, from 0 to 1/2) |
| `C67_weight_refuted`, `C67_anchor_refuted`, `C67_prior_refuted`, `C67_reinit_refuted`, `C67_robust_refuted` | `setMeasurementWeight`, both `anchorFirstPose`, `initializeRobustOptimization` and (with a robust cost) a second `initializeInGlobalFrame` leave the stored quadratic matrix in place, so the iterations that follow minimise a cost with the old weights, or with the linear but not the quadratic part of the prior, until the weights are updated, an activity flag changes or the agent is reset |
| `C68_unbounded` | after a first prior is set on a graph that holds its matrices (`anchorFirstPose` between iterations), the function handed to the optimiser has the linear term of the prior but not its quadratic term, and is unbounded below along translations when the prior's translation is not zero |
| `C69_size_refuted`, `C69_digits_refuted` | the file of `writeSparseMatrixToFile` has neither the size of the matrix nor more than the stream's default digits of its values; `writeMatrixToFile` next to it sets full precision |
| `C65_parallel_refuted` | neighbours that step at the same time can raise the cost of the dataset although each lowers its own; nothing in the library's asynchronous mode (`runOptimizationLoop`) prevents this |
| `C61_repeated_refuted` | the printed cost leaves out every further measurement of a pose pair, although the chordal guess uses it |
| `C56_no_odometry_refuted`, `C56_one_pose_refuted` | the example accepts one pose per robot but then aborts in `setX`: such a robot has no odometry and stays in WAIT_FOR_DATA |

## 7. Tests of the theorems

Wrong versions of the model's definitions were built in a scratch copy; `seeded/LOG.jsonl` records each with the theorems that stopped
proving.
