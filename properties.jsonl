{"id": "C01", "title": "Pose graph stores exactly the accepted measurements", "statement": "After any sequence of addMeasurement calls on an empty PoseGraph with id k, the odometry, private-loop-closure and shared-loop-closure lists are exactly the relevant inputs (an endpoint on robot k), in arrival order, first occurrence of each directed edge only, split by: both endpoints on k and consecutive -> odometry; both endpoints on k otherwise -> private; one endpoint on k -> shared. Nothing else is stored, nothing relevant is lost.", "quantifier": "for every robot id, every finite sequence of measurements whose robot and pose ids fit below 2^32-1 and whose dimensions match the graph", "why_tests_cant": "A test fixes one sequence of edges; the claim ranges over all orders, repetitions and mixtures of local, shared and foreign edges.", "anchors": ["src/PoseGraph.cpp:PoseGraph::addMeasurement", "src/PoseGraph.cpp:PoseGraph::addOdometry", "src/PoseGraph.cpp:PoseGraph::addPrivateLoopClosure", "src/PoseGraph.cpp:PoseGraph::addSharedLoopClosure", "src/PoseGraph.cpp:PoseGraph::setMeasurements"]}
{"id": "C02", "title": "Edge lookup is exact", "statement": "hasMeasurement(src,dst) is true iff an edge src->dst has been accepted, and findMeasurement(src,dst) then returns that very measurement (the first one accepted for this pair), never another one, never aborting and never indexing outside a list; otherwise it returns null. With ids that wrap at 2^32 the lookup can abort (counterexample).", "quantifier": "for every history of insertions and every queried pair of pose ids below 2^32-1", "why_tests_cant": "Three lists share one index table; a wrong index only shows for particular interleavings of the three kinds of edge.", "anchors": ["src/PoseGraph.cpp:PoseGraph::findMeasurement", "src/PoseGraph.cpp:PoseGraph::hasMeasurement", "include/DPGO/DPGO_types.h:EdgeID", "include/DPGO/DPGO_types.h:CompareEdgeID"]}
{"id": "C03", "title": "Number of poses", "statement": "n() equals one plus the largest local pose index touched by an accepted measurement, and zero if none was accepted; it never decreases while measurements are added. A pose index of 2^32-1 makes it wrap to a wrong value (counterexample).", "quantifier": "for every history of insertions with ids below 2^32-1", "why_tests_cant": "Wrap-around and order dependence cannot be covered by sampling.", "anchors": ["src/PoseGraph.cpp:PoseGraph::addOdometry", "src/PoseGraph.cpp:PoseGraph::addSharedLoopClosure", "include/DPGO/PoseGraph.h:n"]}
{"id": "C04", "title": "Neighbour and public-pose sets are exact", "statement": "neighborIDs is exactly the set of other robots appearing in accepted shared edges; myPublicPoseIDs and neighborPublicPoseIDs are exactly the local and remote endpoints of accepted shared edges; requireNeighborPose answers membership of the latter; recomputing them with updatePublicPoseIDs changes nothing.", "quantifier": "for every history of insertions", "why_tests_cant": "Set bookkeeping spread over several functions must agree after any history, not just after one.", "anchors": ["src/PoseGraph.cpp:PoseGraph::addSharedLoopClosure", "src/PoseGraph.cpp:PoseGraph::updatePublicPoseIDs", "src/PoseGraph.cpp:PoseGraph::requireNeighborPose", "src/PoseGraph.cpp:PoseGraph::hasNeighbor"]}
{"id": "C05", "title": "Active and inactive loop closures partition all loop closures", "statement": "Every stored loop closure is in exactly one of activeLoopClosures() and inactiveLoopClosures(); private ones are always active; a shared one is active iff its other robot is active. setNeighborActive for a non-neighbour changes nothing, for a neighbour changes only that neighbour; activity survives until the next setNeighborActive, reset, or shared insertion involving that neighbour (which re-activates it).", "quantifier": "for every history of insertions and activity changes", "why_tests_cant": "Requires reasoning about all histories; a missed flag appears only after particular operation orders.", "anchors": ["src/PoseGraph.cpp:PoseGraph::activeLoopClosures", "src/PoseGraph.cpp:PoseGraph::inactiveLoopClosures", "src/PoseGraph.cpp:PoseGraph::setNeighborActive", "src/PoseGraph.cpp:PoseGraph::isNeighborActive", "src/PoseGraph.cpp:PoseGraph::reset"]}
{"id": "C06", "title": "Loop closure statistics add up", "statement": "statistics() counts each active loop closure exactly once: total = accepted + rejected + undecided = number of active loop closures, accepted are those of weight 1, rejected those of weight 0, and inactive edges and odometry are not counted.", "quantifier": "for every pose graph state and every assignment of weights, fixed or not", "why_tests_cant": "Sum invariants over arbitrary graphs.", "anchors": ["src/PoseGraph.cpp:PoseGraph::statistics"]}
{"id": "C07", "title": "Cached data matrices reflect the current graph", "statement": "Whenever quadraticMatrix()/linearMatrix() returns, the result equals the matrix recomputed from the current measurements, weights, priors, activity flags and neighbour poses, provided weight writes and prior changes are followed by clearDataMatrices() and measurements are not added after construction. Without that discipline staleness is reachable (counterexamples: setPrior, addMeasurement, a weight write, and supplying poses of an inactive neighbour in use). clearDataMatrices drops the three cached matrices and changes nothing else.", "quantifier": "for every sequence of pose-graph operations obeying the stated discipline", "why_tests_cant": "Cache staleness depends on operation order; no finite set of runs excludes it.", "anchors": ["src/PoseGraph.cpp:PoseGraph::quadraticMatrix", "src/PoseGraph.cpp:PoseGraph::linearMatrix", "src/PoseGraph.cpp:PoseGraph::clearDataMatrices", "src/PoseGraph.cpp:PoseGraph::setPrior", "src/PoseGraph.cpp:PoseGraph::setNeighborPoses", "src/PoseGraph.cpp:PoseGraph::setNeighborActive", "src/PoseGraph.cpp:PoseGraph::useInactiveNeighbors"]}
{"id": "C08", "title": "Data matrix construction succeeds exactly when the needed neighbour poses are known", "statement": "constructDataMatrices() returns true iff for every shared edge with an active neighbour that neighbour's pose is in the neighbour pose cache; otherwise it returns false and leaves previously cached matrices as they were.", "quantifier": "for every pose graph and every set of cached neighbour poses", "why_tests_cant": "Ranges over all subsets of neighbour poses.", "anchors": ["src/PoseGraph.cpp:PoseGraph::constructDataMatrices", "src/PoseGraph.cpp:PoseGraph::constructQ", "src/PoseGraph.cpp:PoseGraph::constructG"]}
{"id": "C09", "title": "Shape of the quadratic matrix", "statement": "If the largest pose index occurs in a private edge, the constructed Q has (d+1)n rows and columns and every write stays inside it. If only shared edges reach the last pose (or there are no private edges) the writes leave the allocated matrix (counterexample), and a private self-edge inserts the same coefficient twice (counterexample).", "quantifier": "for every pose graph state", "why_tests_cant": "Out-of-range writes happen only on particular graphs and may go unnoticed at run time.", "anchors": ["src/PoseGraph.cpp:PoseGraph::constructQ", "src/DPGO_utils.cpp:constructOrientedConnectionIncidenceMatrixSE", "src/DPGO_utils.cpp:constructConnectionLaplacianSE"]}
{"id": "C10", "title": "The quadratic form is the weighted least-squares cost", "statement": "For every estimate X, f(X) from Q and G equals one half of the sum of w(kappa|Y_i R - Y_j|^2 + tau|p_j - p_i - Y_i t|^2) over private edges and active shared edges (remote pose from the cache), plus one half of the prior terms, minus a constant that does not depend on X.", "quantifier": "for all dimensions d, ranks r, pose counts, measurement sets, weights, priors, neighbour poses and all X", "why_tests_cant": "An identity over all real matrices; tests compare a few numeric instances only.", "anchors": ["src/PoseGraph.cpp:PoseGraph::constructQ", "src/PoseGraph.cpp:PoseGraph::constructG", "src/QuadraticProblem.cpp:QuadraticProblem::f", "src/DPGO_utils.cpp:constructConnectionLaplacianSE"]}
{"id": "C11", "title": "Gradient and Hessian are exact", "statement": "f(X+tV) = f(X) + t<EucGrad(X),V> + t^2/2 <V,EucHessianEta(V)> for all X, V, t, because Q is symmetric.", "quantifier": "for all X, V, t and all graphs", "why_tests_cant": "Universal identity.", "anchors": ["src/QuadraticProblem.cpp:QuadraticProblem::EucGrad", "src/QuadraticProblem.cpp:QuadraticProblem::EucHessianEta", "src/PoseGraph.cpp:PoseGraph::constructQ"]}
{"id": "C12", "title": "Q is symmetric positive semidefinite and the preconditioner matrix positive definite", "statement": "With nonnegative weights and precisions, Q is symmetric and <V,VQ> >= 0 for all V; after adding 0.1 on the diagonal it is positive definite, so the Cholesky factorisation used as preconditioner exists.", "quantifier": "for all graphs with nonnegative w, kappa, tau", "why_tests_cant": "Universal over matrices and graphs.", "anchors": ["src/PoseGraph.cpp:PoseGraph::constructQ", "src/PoseGraph.cpp:PoseGraph::constructPreconditioner"]}
{"id": "C13", "title": "Gauge invariance", "statement": "Without priors and with all edges private, replacing every pose X_i by O X_i and adding one common vector to every translation leaves the cost unchanged for every orthogonal O.", "quantifier": "for all graphs, estimates, orthogonal O and translations", "why_tests_cant": "Universal identity over a continuous group.", "anchors": ["src/PoseGraph.cpp:PoseGraph::constructQ", "src/QuadraticProblem.cpp:QuadraticProblem::f"]}
{"id": "C14", "title": "Lifting preserves the cost", "statement": "For a lifting matrix with orthonormal columns, the cost of the lifted trajectory equals the cost of the unlifted trajectory, and projecting the lifted trajectory back with the transpose recovers the original exactly.", "quantifier": "for all graphs, trajectories and lifting matrices with orthonormal columns", "why_tests_cant": "Universal identity.", "anchors": ["src/PGOAgent.cpp:PGOAgent::initializeInGlobalFrame", "src/PGOAgent.cpp:PGOAgent::getTrajectoryInGlobalFrame", "src/DPGO_utils.cpp:fixedStiefelVariable"]}
{"id": "C15", "title": "Local descent is global descent", "statement": "In a team where each shared edge is known to both endpoints' robots with equal weight and the updating robot's neighbour cache is current, the change of that robot's local cost equals the change of the centralised cost. Hence any sequence of single-robot updates that do not increase the local cost never increases the centralised cost.", "quantifier": "for every team, measurement set, schedule of robots and local updates", "why_tests_cant": "Ranges over all schedules and all graphs.", "anchors": ["src/PoseGraph.cpp:PoseGraph::constructQ", "src/PoseGraph.cpp:PoseGraph::constructG", "src/PGOAgent.cpp:PGOAgent::updateX", "examples/MultiRobotExample.cpp:main"]}
{"id": "C16", "title": "The multi-robot example partitions the dataset correctly", "statement": "The contiguous partition assigns each global pose to exactly one (robot, local index), the map is a bijection onto the robots' local ranges, each dataset edge between two poses of one robot goes to exactly that robot as odometry or private closure, each other edge to exactly the two robots concerned, in file order; the robots' blocks tile the global trajectory and reassemble to it; the team cost of the blocks equals the dataset's cost; a robot with odometry stores exactly the edges that touch it; the next robot selected is the first with the largest gradient norm. Not true: a robot without odometry stores its shared edges (it stores nothing).", "quantifier": "for every number of poses n and robots m with 1 <= m <= n and every edge list over these poses", "why_tests_cant": "Remainders of n/m and edge placement over all sizes.", "anchors": ["examples/MultiRobotExample.cpp:main"]}
{"id": "C17", "title": "Robust weights stay in [0,1]", "statement": "weight(r) lies in [0,1] for L2, Huber, TLS, GM and for GNC_TLS with positive mu, for every residual r >= 0. For L1 it exceeds 1 for r < 1 and is not finite at r = 0 (counterexample).", "quantifier": "for every residual and every positive parameter", "why_tests_cant": "Continuous range of inputs.", "anchors": ["src/DPGO_robust.cpp:RobustCost::weight"]}
{"id": "C18", "title": "Robust weights never grow with the residual", "statement": "For residuals 0 <= r1 <= r2, weight(r2) <= weight(r1) for every supported cost type; for GNC_TLS the pieces meet: the weight is 1 up to the lower bound, 0 from the upper bound, strictly between inside.", "quantifier": "for every pair of residuals and positive parameters", "why_tests_cant": "Continuous range of inputs, boundary cases.", "anchors": ["src/DPGO_robust.cpp:RobustCost::weight"]}
{"id": "C19", "title": "GNC schedule", "statement": "After k calls of update(), mu = mu0 * step^min(k, maxIters), so mu never decreases when step >= 1 and stops changing after maxIters; reset() returns to the initial state. As mu grows the undecided band shrinks towards the TLS threshold, so each residual different from the threshold is eventually classified as TLS would, if enough updates are allowed.", "quantifier": "for every number of updates and every parameter setting", "why_tests_cant": "Unbounded number of updates.", "anchors": ["src/DPGO_robust.cpp:RobustCost::update", "src/DPGO_robust.cpp:RobustCost::reset", "src/DPGO_robust.cpp:RobustCost::weight"]}
{"id": "C20", "title": "Translation averaging returns the weighted minimiser", "statement": "singleTranslationAveraging returns the unique minimiser of sum tau_i |t - t_i|^2, using unit weights if the weight list has a different length.", "quantifier": "for every nonempty list of vectors and positive weights", "why_tests_cant": "Optimality against all competitors.", "anchors": ["src/DPGO_solver.cpp:singleTranslationAveraging"]}
{"id": "C21", "title": "Rotation projection is the closest rotation", "statement": "Given a singular value decomposition, projectToRotationGroup returns a matrix with orthonormal columns and determinant 1 that is at least as close in Frobenius norm as every other rotation; hence singleRotationAveraging minimises sum kappa_i |R - R_i|^2 over rotations.", "quantifier": "for every square matrix of any size and every rotation competitor", "why_tests_cant": "Optimality against all competitors.", "anchors": ["src/DPGO_utils.cpp:projectToRotationGroup", "src/DPGO_solver.cpp:singleRotationAveraging"]}
{"id": "C22", "title": "Stiefel projection is the closest Stiefel point", "statement": "Given a thin singular value decomposition, projectToStiefelManifold returns a matrix with orthonormal columns closest in Frobenius norm; the manifold projection of a whole trajectory applies it per pose, leaves translations unchanged and is idempotent on feasible points.", "quantifier": "for every matrix and every competitor", "why_tests_cant": "Optimality against all competitors.", "anchors": ["src/DPGO_utils.cpp:projectToStiefelManifold", "src/manifold/LiftedSEManifold.cpp:LiftedSEManifold::project"]}
{"id": "C23", "title": "Robust averaging reports only true inliers", "statement": "In robustSinglePoseAveraging and robustSingleRotationAveraging the reported inlier indices are strictly increasing and in range, and each reported inlier has squared residual below the squared threshold with respect to the returned estimate; if all residuals at the plain average are below threshold/sqrt 2 every measurement is reported. The estimate returned is the average under the weights of the last call, and unless the iteration limit was hit the reported indices are exactly the measurements whose squared residual is below the squared threshold (for residuals at the plain average up to 1e15 times that).", "quantifier": "for every nonempty list of candidate poses, positive precisions and thresholds", "why_tests_cant": "Ranges over all inputs and iteration counts.", "anchors": ["src/DPGO_solver.cpp:robustSinglePoseAveraging", "src/DPGO_solver.cpp:robustSingleRotationAveraging"]}
{"id": "C24", "title": "Robust averaging never averages with zero total weight", "statement": "During robust averaging every call of the weighted average has strictly positive total weight, so no 0/0 arises, and the loop ends after at most the iteration limit.", "quantifier": "for every nonempty input with positive precisions", "why_tests_cant": "All weights vanishing at once is a corner case that random tests miss.", "anchors": ["src/DPGO_solver.cpp:robustSinglePoseAveraging", "src/DPGO_solver.cpp:robustSingleRotationAveraging", "src/DPGO_solver.cpp:singleTranslationAveraging"]}
{"id": "C25", "title": "Fixed-weight measurements keep their weight in the agent", "statement": "updateMeasurementWeights and initializeRobustOptimization never change the weight of a measurement marked fixed, of odometry, or of a loop closure with an inactive robot. The stand-alone solveRobustPGO does overwrite fixed weights at its start (counterexample). Every other loop closure with known poses gets exactly the robust weight of its residual, the square root of the measurement error at the poses the agent holds; a weight update changes nothing else but the counters, the publish and ready flags and the cached matrices.", "quantifier": "for every agent state and every residual outcome", "why_tests_cant": "All graphs and all residuals.", "anchors": ["src/PGOAgent.cpp:PGOAgent::updateMeasurementWeights", "src/PGOAgent.cpp:PGOAgent::initializeRobustOptimization", "src/DPGO_solver.cpp:solveRobustPGO"]}
{"id": "C26", "title": "Odometry initialisation chains exactly", "statement": "odometryInitialization on odometry 0->1, ..., n-2->n-1 without partial trajectory returns poses starting at the identity whose relative pose between k and k+1 equals the k-th measurement exactly, with all rotations staying rotations and no out-of-range access; with a partial trajectory longer than the list it reads past the end (counterexample).", "quantifier": "for every length and every measurement values", "why_tests_cant": "All lengths; needs induction.", "anchors": ["src/DPGO_solver.cpp:odometryInitialization"]}
{"id": "C27", "title": "Pose algebra", "statement": "Pose multiplication is associative with unit identity(), T*T.inverse() and T.inverse()*T are the identity for every rigid T, and products and inverses of rigid poses are rigid.", "quantifier": "for all rigid poses of any dimension", "why_tests_cant": "Universal identities.", "anchors": ["src/manifold/Poses.cpp:Pose::operator*", "src/manifold/Poses.cpp:Pose::inverse", "src/manifold/Poses.cpp:Pose::identity"]}
{"id": "C28", "title": "Lifted pose array accessors are independent", "statement": "Writing pose i, rotation i or translation i of a LiftedPoseArray changes exactly the corresponding block: reading it back returns the written value and every other block is unchanged; out-of-range access aborts.", "quantifier": "for all arrays and all index pairs", "why_tests_cant": "All index pairs and sizes.", "anchors": ["src/manifold/Poses.cpp:LiftedPoseArray::pose", "src/manifold/Poses.cpp:LiftedPoseArray::rotation", "src/manifold/Poses.cpp:LiftedPoseArray::translation"]}
{"id": "C29", "title": "Inter-robot frame alignment", "statement": "computeNeighborTransform returns the rigid transform from the neighbour's world frame such that, after applying it, the two poses satisfy the inter-robot measurement exactly, for both edge directions; composed with initializeInGlobalFrame, noise-free measurements give zero residual on that edge.", "quantifier": "for all rigid local poses, neighbour poses and measurements", "why_tests_cant": "Two directions times all rigid motions.", "anchors": ["src/PGOAgent.cpp:PGOAgent::computeNeighborTransform", "src/PGOAgent.cpp:PGOAgent::initializeInGlobalFrame"]}
{"id": "C30", "title": "Initialisation fixes the local frame", "statement": "After a successful initialize() the local trajectory's first pose is the identity and all relative poses equal those of the initial trajectory used; entering the global frame applies one rigid transform, so relative poses are unchanged.", "quantifier": "for every initial trajectory and every rigid transform", "why_tests_cant": "Universal over trajectories.", "anchors": ["src/PGOAgent.cpp:PGOAgent::initialize", "src/PGOAgent.cpp:PGOAgent::initializeInGlobalFrame"]}
{"id": "C31", "title": "Trajectory export", "statement": "getTrajectoryInGlobalFrame returns poses whose rotations are rotations, expressed relative to the global anchor. getTrajectoryInLocalFrame is documented to return the trajectory with the first pose at the identity: the first pose is the identity but the other translations are not shifted, because the reference to the first translation is overwritten in the loop (counterexample); it is right exactly when the first translation is already zero or there is one pose.", "quantifier": "for every estimate", "why_tests_cant": "The tests only use trajectories whose first translation is zero.", "anchors": ["src/PGOAgent.cpp:PGOAgent::getTrajectoryInLocalFrame", "src/PGOAgent.cpp:PGOAgent::getTrajectoryInGlobalFrame", "src/PGOAgent.cpp:PGOAgent::getPoseInGlobalFrame"]}
{"id": "C32", "title": "Agent life cycle", "statement": "The agent state only moves WAIT_FOR_DATA -> WAIT_FOR_INITIALIZATION -> INITIALIZED, one step or more forward at a time, and returns to WAIT_FOR_DATA only by reset(); measurements are accepted only in WAIT_FOR_DATA; instance number counts the resets; iteration number counts iterate() calls since the last reset (modulo 2^32).", "quantifier": "for every sequence of API calls", "why_tests_cant": "All histories.", "anchors": ["src/PGOAgent.cpp:PGOAgent::initialize", "src/PGOAgent.cpp:PGOAgent::initializeInGlobalFrame", "src/PGOAgent.cpp:PGOAgent::setX", "src/PGOAgent.cpp:PGOAgent::reset", "src/PGOAgent.cpp:PGOAgent::iterate", "src/PGOAgent.cpp:PGOAgent::addMeasurement"]}
{"id": "C33", "title": "Pose getters never abort on a live agent", "statement": "In every reachable state other than WAIT_FOR_DATA the estimate has exactly num_poses() poses, so getX, getSharedPose for a local index below num_poses() and getSharedPoseDict succeed (once initialised), and the dictionary has exactly the public pose ids as keys with the current estimate's blocks as values.", "quantifier": "for every sequence of API calls that has not aborted", "why_tests_cant": "All histories; an off-by-one shows only for particular graphs.", "anchors": ["src/PGOAgent.cpp:PGOAgent::getSharedPoseDict", "src/PGOAgent.cpp:PGOAgent::getSharedPose", "src/PGOAgent.cpp:PGOAgent::setX", "src/PGOAgent.cpp:PGOAgent::getSharedPoseDictWithNeighbor"]}
{"id": "C34", "title": "Termination decision", "statement": "shouldTerminate() returns true only if the iteration limit is reached, or (for a robust cost) enough weight updates were done, and every active robot's latest reported status is INITIALIZED and ready; conversely it returns true whenever these hold. Statuses received before a weight update or reset do not count. After reset() no robot is marked active, so the decision is vacuously true (counterexample to the documented reactivation).", "quantifier": "for every history of status messages, iterations, weight updates and resets", "why_tests_cant": "All histories and team sizes.", "anchors": ["src/PGOAgent.cpp:PGOAgent::shouldTerminate", "src/PGOAgent.cpp:PGOAgent::updateMeasurementWeights", "src/PGOAgent.cpp:PGOAgent::reset", "include/DPGO/PGOAgent.h:PGOAgent::setNeighborStatus"]}
{"id": "C35", "title": "Weight update decision", "statement": "shouldUpdateMeasurementWeights() is false for L2, after the planned number of updates, and before the inner-iteration limit while some active robot has not reported readiness with an iteration number at or after the latest weight update; it is true at the inner-iteration limit or when all active robots have.", "quantifier": "for every history", "why_tests_cant": "All histories and team sizes.", "anchors": ["src/PGOAgent.cpp:PGOAgent::shouldUpdateMeasurementWeights", "src/PGOAgent.cpp:PGOAgent::updateMeasurementWeights"]}
{"id": "C36", "title": "Neighbour pose cache", "statement": "After any history, the cached pose of a remote pose id is the last value delivered for it by updateNeighborPoses while both robots were initialised, since the last clearing; ids that no shared edge requires are never cached; a message whose pose ids belong to another robot aborts.", "quantifier": "for every sequence of deliveries, clears and status changes", "why_tests_cant": "All histories.", "anchors": ["src/PGOAgent.cpp:PGOAgent::updateNeighborPoses", "src/PGOAgent.cpp:PGOAgent::updateAuxNeighborPoses", "src/PGOAgent.cpp:PGOAgent::clearNeighborPoses", "src/PGOAgent.cpp:PGOAgent::clearActiveNeighborPoses"]}
{"id": "C37", "title": "An agent that is not asked or not able to optimise does not move", "statement": "Without acceleration, iterate(false), iterate() before initialisation, and iterate(true) with a missing active-neighbour pose leave the estimate unchanged; a failed local solve never makes the agent report readiness.", "quantifier": "for every agent state and every optimiser behaviour", "why_tests_cant": "All states, all solver outcomes.", "anchors": ["src/PGOAgent.cpp:PGOAgent::iterate", "src/PGOAgent.cpp:PGOAgent::updateX"]}
{"id": "C38", "title": "Acceleration parameters", "statement": "For N >= 1 robots, from gamma=0 the sequences satisfy N*g'^2 - g' = N*g^2, g' > 0, gamma strictly increasing and at least k/(2N) after k steps, alpha in (0,1] with alpha = 1 at the first step after every restart.", "quantifier": "for every N >= 1 and every number of iterations", "why_tests_cant": "Unbounded iterations.", "anchors": ["src/PGOAgent.cpp:PGOAgent::updateGamma", "src/PGOAgent.cpp:PGOAgent::updateAlpha", "src/PGOAgent.cpp:PGOAgent::initializeAcceleration"]}
{"id": "C39", "title": "Restart schedule", "statement": "With acceleration, a restart happens exactly at the calls of iterate() whose index is congruent to -1 modulo the restart interval, and after it the auxiliary estimates equal the estimate and gamma = alpha = 0; a restart interval of 0 divides by zero.", "quantifier": "for every iteration number and interval", "why_tests_cant": "Unbounded iterations.", "anchors": ["src/PGOAgent.cpp:PGOAgent::shouldRestart", "src/PGOAgent.cpp:PGOAgent::restartNesterovAcceleration", "src/PGOAgent.cpp:PGOAgent::iterate"]}
{"id": "C40", "title": "No deadlock among the locks, except one reachable inversion", "statement": "Every API call except the weight update with trajectory reset, and every round of the optimisation thread, takes the pose, measurement and neighbour mutexes in one fixed order, joins the optimisation thread only with no mutex held, and releases all it took. So for any number of threads and any schedule of such calls (one thread making the controlling calls) every unfinished thread either can move or waits, directly or through others, for a thread that can. The weight update with trajectory reset takes the pose mutex while holding the measurement mutex; against the optimisation thread this deadlocks (schedule given).", "quantifier": "for every number of threads, every program of calls and every interleaving", "why_tests_cant": "Scheduling nondeterminism.", "anchors": ["src/PGOAgent.cpp:PGOAgent::updateX", "src/PGOAgent.cpp:PGOAgent::updateMeasurementWeights", "src/PGOAgent.cpp:PGOAgent::setXToInitialGuess", "src/PGOAgent.cpp:PGOAgent::initializeInGlobalFrame", "src/PGOAgent.cpp:PGOAgent::updateNeighborPoses"]}
{"id": "C41", "title": "Stopping the optimisation thread", "statement": "With one thread making the controlling calls: after endOptimizationLoop() (or reset()) returns, no optimisation thread exists and no further iteration happens until startOptimizationLoop() or initialize(); while the stop request is set at most one more iteration begins, none if the thread is already inside one, and the thread makes a bounded number of further steps; every thread started makes at least one iteration; at most one optimisation thread exists at any time. Two threads starting it concurrently end the process (schedule given).", "quantifier": "for every interleaving of any number of calling threads, one of them controlling, and the optimisation thread", "why_tests_cant": "Scheduling nondeterminism.", "anchors": ["src/PGOAgent.cpp:PGOAgent::startOptimizationLoop", "src/PGOAgent.cpp:PGOAgent::runOptimizationLoop", "src/PGOAgent.cpp:PGOAgent::endOptimizationLoop", "src/PGOAgent.cpp:PGOAgent::isOptimizationRunning"]}
{"id": "C42", "title": "Reset", "statement": "reset() stops the thread, increments the instance number, zeroes the iteration counters, drops the initial guess, neighbour poses, team status and cached matrices, and returns to WAIT_FOR_DATA; the measurements already stored remain, contrary to the documented empty pose graph (counterexample).", "quantifier": "for every reachable state", "why_tests_cant": "All histories.", "anchors": ["src/PGOAgent.cpp:PGOAgent::reset", "src/PoseGraph.cpp:PoseGraph::reset"]}
{"id": "C43", "title": "Trust-region wrapper", "statement": "QuadraticOptimizer in single-step mode runs the solver at most 12 times, each time with a radius a quarter of the previous, and returns either the first accepted point or the start point; it returns the start point unchanged if the gradient norm is below the tolerance; with a solver that accepts only non-increasing points the returned cost is never above the start cost.", "quantifier": "for every solver behaviour", "why_tests_cant": "All solver outcomes.", "anchors": ["src/QuadraticOptimizer.cpp:QuadraticOptimizer::trustRegion", "src/QuadraticOptimizer.cpp:QuadraticOptimizer::optimize"]}
{"id": "C44", "title": "g2o reading", "statement": "For a file whose lines are vertex lines and complete edge lines, read_g2o_file returns one measurement per edge line in file order, with both robot ids 0, unit weight, the given pose ids, fixed weight iff the edge is between consecutive ids, and the precisions n/tr(I_t^-1) and (3-D) 3/(2 tr(I_R^-1)), which are positive for positive definite information; the pose count is one more than the largest index (ids below 2^53). For any file whatsoever: vertex lines contribute nothing; any other tag aborts; a blank line after an edge repeats that edge. Not true: a truncated edge line is not rejected but takes its missing values from earlier lines; indices above 2^53 are miscounted; the rotation block turns vectors as q v q* does for a unit quaternion; a quaternion that is not a unit one yields a matrix that is not a rotation (counterexamples).", "quantifier": "for every file content (text), every number scanner", "why_tests_cant": "All files.", "anchors": ["src/DPGO_utils.cpp:read_g2o_file"]}
{"id": "C45", "title": "Measurement log round trip", "statement": "For 3-D measurements with ids below 2^31, loading what logMeasurements wrote (under its full path) returns the same list in order, with the same ids and fixed flags, each number read through its own text once, and (with load_weight) the weights; without load_weight all weights are 1; no other file changes; when the text of the numbers is exact, rotations come back exactly through their quaternion. The file is a header naming the fifteen columns and one row per measurement with the texts belonging to these names (the quaternion is a unit one with q v q* = R v); any file with such columns, written by anyone, is read as the measurements its columns describe. In 2-D the file is emptied and nothing is written. Not true: loading under the name given to logMeasurements (the directory is ignored), and ids from 2^31 (the loader throws).", "quantifier": "for every list of measurements, every file system, every number format", "why_tests_cant": "All lists.", "anchors": ["src/PGOLogger.cpp:PGOLogger::logMeasurements", "src/PGOLogger.cpp:PGOLogger::loadMeasurements"]}
{"id": "C46", "title": "Trajectory log round trip", "statement": "Loading what logTrajectory wrote returns the same poses, each number read through its own text once, exactly so when that text is exact; for any file whose rows can be read, loading succeeds iff the pose ids are exactly 0..n-1 in some order (repeated ids always throw), and then each row's pose is in the block of its id; the eight named columns hold what their names say, on writing and on reading a file written by anyone; in 2-D nothing is written. Not true: a row with too few fields is accepted, its last field standing in for the missing ones.", "quantifier": "for every trajectory and every file given as rows", "why_tests_cant": "All files.", "anchors": ["src/PGOLogger.cpp:PGOLogger::logTrajectory", "src/PGOLogger.cpp:PGOLogger::loadTrajectory"]}
{"id": "C47", "title": "Chordal initialisation matrices encode the chordal cost", "statement": "With the matrices from constructBMatrices, |B3 vec(R)|^2 = sum kappa |R_j - R_i R_ij|^2 and |B1 t + B2 vec(R)|^2 = sum tau |t_j - t_i - R_i t_ij|^2.", "quantifier": "for every measurement list and all block vectors", "why_tests_cant": "Universal identity with intricate index arithmetic.", "anchors": ["src/DPGO_utils.cpp:constructBMatrices", "src/DPGO_utils.cpp:recoverTranslations", "src/DPGO_solver.cpp:chordalInitialization"]}
{"id": "C48", "title": "Identifier orders and hash", "statement": "ComparePoseID and CompareEdgeID are strict total orders whose equivalence is equality, so sets and maps keyed by them identify exactly equal ids; HashEdgeID agrees on equal ids.", "quantifier": "for all ids", "why_tests_cant": "All triples of ids.", "anchors": ["include/DPGO/DPGO_types.h:ComparePoseID", "include/DPGO/DPGO_types.h:CompareEdgeID", "include/DPGO/DPGO_types.h:HashEdgeID"]}
{"id": "C49", "title": "Measurement error vanishes exactly on consistent poses", "statement": "computeMeasurementError returns kappa |R1 R - R2|^2 + tau |t2 - t1 - R1 t|^2; it is nonnegative and, with positive precisions, zero iff the two poses satisfy the relative measurement exactly; it is unchanged when both poses are moved by one rigid transform.", "quantifier": "for all poses and measurements", "why_tests_cant": "Universal.", "anchors": ["src/DPGO_utils.cpp:computeMeasurementError"]}
{"id": "C50", "title": "Team status table is self-consistent", "statement": "In every reachable state each entry of the team status table is stored under its own robot id, so the internal sanity checks in shouldTerminate and shouldUpdateMeasurementWeights never abort.", "quantifier": "for every sequence of API calls", "why_tests_cant": "All histories.", "anchors": ["include/DPGO/PGOAgent.h:PGOAgent::setNeighborStatus", "src/PGOAgent.cpp:PGOAgent::shouldTerminate", "src/PGOAgent.cpp:PGOAgent::shouldUpdateMeasurementWeights"]}
{"id": "C51", "title": "Robust weights come from the robust losses", "statement": "The GNC_TLS weight minimises the GNC surrogate objective over [0,1]; for every cost type the weight at residual r gives a quadratic function that lies above the loss everywhere and touches it at r, so any estimate that lowers the weighted sum of squared residuals lowers the robust cost.", "quantifier": "for all residuals, all positive parameters, all lists of residual pairs", "why_tests_cant": "A universal inequality between real functions.", "anchors": ["src/DPGO_robust.cpp:RobustCost::weight"]}
{"id": "C52", "title": "Which shared data the mutexes protect", "statement": "In any execution without weight updates no two threads access the neighbour pose dictionaries at the same time with one of them writing; the setters and getters of the iterate do not race with each other. updateMeasurementWeights reads the dictionaries without their mutex, iterate reads X without the pose mutex, and the stop request is a plain bool: a schedule with a data race is given for each.", "quantifier": "for every number of threads, every program of calls and every interleaving", "why_tests_cant": "A race needs a particular interleaving and may leave no visible trace in a test run.", "anchors": ["src/PGOAgent.cpp:PGOAgent::updateNeighborPoses", "src/PGOAgent.cpp:PGOAgent::clearNeighborPoses", "src/PGOAgent.cpp:PGOAgent::updateX", "src/PGOAgent.cpp:PGOAgent::iterate", "src/PGOAgent.cpp:PGOAgent::computeMeasurementResidual", "src/PGOAgent.cpp:PGOAgent::endOptimizationLoop"]}
{"id": "C53", "title": "Chordal initialisation solves the relaxation and is exact without noise", "statement": "chordalInitialization returns n poses, the first the identity; before rounding its rotations minimise the rotation cost over all d-by-d matrices with the first block fixed to the identity, rounding gives the closest rotation to each block, and its translations minimise the translation cost for the rounded rotations. On consistent measurements of a connected graph the result is the true poses expressed in the frame of pose 0.", "quantifier": "for all lists of measurements of dimension 2 or 3 with non-negative precisions, all numbers of poses below the 32-bit limit, and every sparse QR and SVD routine that meets its contract on the matrices at hand", "why_tests_cant": "Optimality over all matrices and exactness for every connected graph; a dataset shows one instance, with rounding error.", "anchors": ["src/DPGO_solver.cpp:chordalInitialization", "src/DPGO_utils.cpp:recoverTranslations", "src/DPGO_utils.cpp:constructBMatrices"]}
{"id": "C54", "title": "The centralised solver never worsens its start and is exact without noise", "statement": "solvePGO returns a trajectory of the size of its start (the given T0 or the chordal initialisation) whose cost, over the measurements it keeps (the first one for every pair of poses), is at most the cost of that start. On consistent measurements of a connected graph with positive weights and precisions and no T0, the result has cost 0 over all measurements and every pose is the true pose seen from pose 0, expressed in the result's frame of pose 0.", "quantifier": "for all single-robot lists of measurements of dimension 2 or 3, every start of the right size, every trust-region solver whose accepted iterates do not cost more than its start, every iteration limit and tolerance", "why_tests_cant": "A run shows one dataset and one solver behaviour; here the solver may do anything short of accepting a worse point, on any graph.", "anchors": ["src/DPGO_solver.cpp:solvePGO", "src/QuadraticOptimizer.cpp:QuadraticOptimizer::trustRegion", "src/DPGO_solver.cpp:chordalInitialization"]}
{"id": "C55", "title": "Published status and the change of the iterate", "statement": "An optimising iterate() of an initialised agent publishes its own id, state, instance number and new iteration number, the largest distance a translation moved, and a ready flag that is true exactly when the local solve succeeded, that distance is not above the tolerance (5 with a robust cost before the first weight update) and enough loop closures are decided (or there are none). Other iterations publish nothing. Whenever the flag is true, it was set by the last optimising step, and no reset or weight update happened since. The largest and average translation distances are the largest and the mean of the Euclidean distances of the translations; the largest one is symmetric, satisfies the triangle inequality and is 0 only for equal translations; trajectories of different sizes abort. A NaN translation counts as no change, so an agent whose iterate is all NaN reports ready (counterexample in binary64).", "quantifier": "for every history of calls, optimiser, scalar type and trajectory", "why_tests_cant": "All histories, sizes and optimiser behaviours; the NaN case never occurs in the test data.", "anchors": ["src/PGOAgent.cpp:PGOAgent::iterate", "src/manifold/Poses.cpp:LiftedPoseArray::maxTranslationDistance", "src/PoseGraph.cpp:PoseGraph::statistics"]}
{"id": "C56", "title": "The multi-robot example program runs to completion and prints correct lines", "statement": "On a dataset with consecutive odometry, no pair measured twice and at least two poses per robot, the whole example program (split, per-robot initialisation, chordal start, optimisation loop, reset) never fails a check. Line j carries iteration j, a valid robot, twice the dataset's cost at the joined trajectory and the norm of the projected gradient there. The first robot is 0; each next one is the first with the largest gradient part (or the same one if it shares no measurement); the run stops exactly at the first norm below 0.1 or at the iteration limit. At the end every robot waits for data in instance 1 with iteration 0 and holds its part of the last trajectory. Without acceleration the printed costs never increase, starting from the cost of the lifted chordal start, for the trust-region wrapper with any solver whose accepted iterates do not cost more; on noise-free data every printed cost is 0. A robot without an odometry edge (for example one pose per robot) makes the program abort, although it accepts such sizes.", "quantifier": "for all datasets of the stated form, numbers of robots, relaxation ranks, iteration limits, optimisers returning matrices of the right size, and tangent projections", "why_tests_cant": "The program is run by hand on a few datasets; nothing checks its output, and the number of robots is free.", "anchors": ["examples/MultiRobotExample.cpp:main", "src/PGOAgent.cpp:PGOAgent::iterate", "src/PGOAgent.cpp:PGOAgent::updateNeighborPoses", "src/QuadraticOptimizer.cpp:QuadraticOptimizer::optimize"]}
{"id": "C57", "title": "What one iteration computes", "statement": "An iterate() of an initialised agent keeps the old X as XPrev. Without acceleration, X becomes the optimiser's result started from X on the stored measurements, activity flags and priors and on the received neighbour poses, with both matrices built; it stays when no optimisation is asked for, or when the pose of an active neighbour is missing, and the latter is exactly when the call returns false. With acceleration, Y is the manifold projection of (1-alpha) X + alpha V with the new alpha, X is the optimiser's result started from Y on the received auxiliary poses (Y itself when no optimisation is asked for, the old X on failure), and V is the projection of V + gamma (X' - Y). At a restart these are discarded and X is computed again from the old X on the received plain poses, staying at the old X when one is missing. That second failure is not reported: the call returns true and the agent publishes ready with change 0 (counterexample).", "quantifier": "for every history of calls, optimiser, SVD, scalar type and parameter values", "why_tests_cant": "All histories and optimisers; the tests only run the accelerated branch on complete data.", "anchors": ["src/PGOAgent.cpp:PGOAgent::iterate", "src/PGOAgent.cpp:PGOAgent::updateX", "src/PGOAgent.cpp:PGOAgent::updateY", "src/PGOAgent.cpp:PGOAgent::updateV", "src/PGOAgent.cpp:PGOAgent::restartNesterovAcceleration"]}
{"id": "C58", "title": "Robust pose graph optimisation: weights and trajectory belong together", "statement": "solveRobustPGO on well-formed data never fails when the inner solver does not, changes nothing of the measurements but their weights, and returns the inner solver's answer for exactly the weights it returns. If all squared residuals of the first solution are below half the squared threshold, all weights are 1. If the largest exceeds it, the weights are those after k rounds of solving and reweighting with the truncated-least-squares formula, control parameter mu0*step^j in round j with mu0 = c^2/(2 max - c^2); k is the iteration limit or the first round after which every non-fixed measurement is accepted or rejected. Weights are in [0,1]; an accepted measurement has squared residual below c^2 at the trajectory of that round, a rejected one (mu0 >= 2e-16) at least c^2; fixed measurements end with weight 1 and are never judged. With the library's own solver on consistent connected data the exact trajectory and all weights 1 are returned. When twice the largest squared residual equals c^2, the division yields infinity and every weight becomes NaN, although every residual is within the threshold (counterexample).", "quantifier": "for all measurement lists, inner solvers, thresholds, steps and iteration limits", "why_tests_cant": "The repository's test runs one dataset; the claim covers every outlier pattern and the exact equality in the division.", "anchors": ["src/DPGO_solver.cpp:solveRobustPGO", "src/DPGO_solver.cpp:solvePGO", "src/DPGO_robust.cpp:RobustCost::weight", "src/DPGO_robust.cpp:RobustCost::update"]}
{"id": "C59", "title": "Eigen views of ROPTLIB variables behave like values", "statement": "A program that creates lifted variables, writes poses, rotations, translations or whole matrices through the Eigen views or through ROPTLIB's factors, assigns and deletes them behaves as if each variable held its poses by value: the matrix getData returns, the views and ROPTLIB's rotation and translation factors show the same numbers, no other variable changes, matrices of the wrong size and indices out of range terminate instead of writing outside. Assigning a variable to itself is the exception: it reads memory that was never written (counterexample). A tangent vector gives back the matrix last stored in it and changes nothing else; one that is copied is released twice (counterexample).", "quantifier": "for all programs over any number of variables, all dimensions r, d, n and all scalar types", "why_tests_cant": "The repository's tests read a variable once after writing it; aliasing between variables and self-assignment depend on the order of operations.", "anchors": ["src/manifold/LiftedSEVariable.cpp", "src/manifold/LiftedSEVector.cpp", "include/DPGO/manifold/LiftedSEVariable.h"]}
{"id": "C60", "title": "Joining a neighbour's frame: robust averaging with an angular threshold", "statement": "For each shared loop closure with the neighbour whose pose was sent, in order and no others, the candidate is the one change of frame after which that measurement holds between the neighbour's pose and the robot's own. computeRobustNeighborTransformTwoStage returns nothing if fewer than robustInitMinInliers candidates are used; otherwise a rigid motion whose rotation minimises a weighted sum of squared chordal distances to all candidates, whose used candidates all lie within 0.5 rad of it (angle of rotation, not chordal distance; and they are all such unless the averaging ran out of its 1000 rounds) and whose translation is the mean of the used ones. angular2ChordalSO3 makes the chordal comparison an angle comparison for every angle up to pi in 2D and 3D. If all measurements ask for the same change of frame that one is returned. A waiting robot that receives poses stays unchanged or enters exactly that frame with its whole local trajectory, after which measurements agreeing with it have residual zero. The one-stage variant computeRobustNeighborTransform uses only candidates whose weighted squared residual (1.82, 0.01) is below the squared threshold and is exact on agreeing measurements too.", "quantifier": "for all agents reachable by any history, neighbours, received pose dictionaries, measurement sets, thresholds and both dimensions", "why_tests_cant": "The unit tests average a few random poses; which of any number of candidates are accepted and the exactness of the angle threshold need the trigonometric identity for every rotation.", "anchors": ["src/PGOAgent.cpp:PGOAgent::computeRobustNeighborTransformTwoStage", "src/PGOAgent.cpp:PGOAgent::computeRobustNeighborTransform", "src/PGOAgent.cpp:PGOAgent::computeNeighborTransform", "src/PGOAgent.cpp:PGOAgent::updateNeighborPoses", "src/DPGO_utils.cpp:angular2ChordalSO3"]}
{"id": "C61", "title": "The single-robot programs: what they print and return", "statement": "SingleRobotExample prints twice the dataset cost of the trajectory it holds, and that is not above twice the dataset cost of the chordal initial guess. ChordalInitializationExample prints the cost of the chordal initial guess over the first measurement of each pose pair. SingleRobotGNCExample starts every solve at the odometry trajectory, no solve raises the weighted cost, and it returns the weights of at most 20 graduated rounds with threshold 5 and step 1.4; all weights stay 1 if no residual of the first solution reaches the threshold. On measurements that agree with true poses all three return those poses (from the first pose, or up to a change of frame), the first two print 0 and the third rejects nothing. Refuted: that the programs accept every connected dataset (without odometry edges, or with odometry out of order, two of them abort) and that the printed cost counts every measurement (a second one of a pose pair is dropped).", "quantifier": "for all datasets of any size and both dimensions, all descending local solvers, all sparse QR and singular value decompositions", "why_tests_cant": "The programs are run by hand on files; no test covers them, and the agreement of the printed number with the dataset's cost depends on every dataset and on what the external solvers return.", "anchors": ["examples/SingleRobotExample.cpp:main", "examples/ChordalInitializationExample.cpp:main", "examples/SingleRobotGNCExample.cpp:main", "src/PGOAgent.cpp:PGOAgent::localPoseGraphOptimization", "src/DPGO_solver.cpp:solvePGO", "src/DPGO_solver.cpp:solveRobustPGO"]}
{"id": "C62", "title": "The log files of an agent", "statement": "With logging on, an agent run makes the same calls succeed with the same agent states as with logging off (dimension 2 or 3, fewer than 2^30 poses). Over any history only measurements.csv, trajectory_optimized.csv, X.txt and trajectory_initial.csv in the log directory can change, and only if logging is on and the file can be opened. In 3-D, when the text of the numbers at hand is exact: reset writes the measurements with their current weights so that loading gives them back; with an anchor and an initialised agent it writes the rounded trajectory relative to the anchor; and it writes the lifted iterate row by row. Every entry into the global frame writes the trajectory whose lift is the new iterate. Refuted: that after a reset the files describe one session (without an anchor an earlier trajectory stays; without measurements an earlier measurement file stays), that planar measurements are logged (the file is emptied), and that robots can share a log directory.", "quantifier": "for all reachable agents, all call histories, all initial file contents, all directories and sets of writable files, all number formats exact at the numbers written", "why_tests_cant": "The claim is about every history of calls and every file that must not change; a test sees a few sessions with one directory and one set of measurements.", "anchors": ["src/PGOAgent.cpp:reset", "src/PGOAgent.cpp:initializeInGlobalFrame", "src/DPGO_utils.cpp:writeMatrixToFile", "src/PGOLogger.cpp:logMeasurements", "src/PGOLogger.cpp:logTrajectory"]}
{"id": "C63", "title": "The error threshold at a quantile", "statement": "computeErrorThresholdAtQuantile returns for dimension 3 and a quantile q strictly between 0 and 1 the one nonnegative number t such that the chi-squared distribution with six degrees of freedom has mass q up to t squared. It aborts exactly if the dimension (low 32 bits) is not 3 or the quantile is not positive. The threshold strictly grows with q over the doubles below 1, and from those to the value at 1 and beyond. For q = 0.9, which computeRobustNeighborTransform uses, it lies between 3.16 and 3.32. With this threshold truncated least squares gives weight 1 to the residuals whose square has mass below q and weight 0 to all others; graduated non-convexity gives weight 0 or 1 exactly to those beyond or up to the quantile when scaled by the square root of (mu+1)/mu; and every candidate used by computeRobustNeighborTransform has a squared residual of mass below 0.9. Refuted: that a quantile of 1 keeps every residual (those from 1e5 on are rejected), that the threshold is monotone at 1 over the reals, and that only dimension 3 passes the check.", "quantifier": "for all quantiles, dimensions, residuals, values of mu, and all quantile functions meeting their definition; for the averaging, all reachable agents and received pose dictionaries", "why_tests_cant": "The claim relates a threshold to an integral over the whole distribution for every quantile and residual; a test compares a few tabulated values.", "anchors": ["include/DPGO/DPGO_robust.h:computeErrorThresholdAtQuantile", "src/DPGO_utils.cpp:chi2inv", "src/DPGO_robust.cpp:weight", "src/PGOAgent.cpp:computeRobustNeighborTransform"]}
{"id": "C64", "title": "What the robots of a team know of each other", "statement": "Take any number of agents exchanging their public poses, auxiliary poses and statuses over a network that may delay, lose, repeat and reorder messages, with any calls in between. Every neighbour pose an agent has cached equals a pose its owner had (estimate or auxiliary estimate) and published, while initialised, at some earlier moment; every status on record was that robot's status at some earlier moment. If shouldTerminate answers yes before the iteration limit, then every active robot had at some moment taken an optimising step that succeeded, moved it by no more than the tolerance and left enough loop closures decided. Sending status and public poses between two initialised robots succeeds and gives the receiver the sender's present pose for every edge they share, leaving all other entries, estimates and robots alone. If the two robots of a shared edge exchange their poses and then update their weights, at the same stage of the robust optimisation, both give the edge the weight of the robust cost at the residual of their present estimates. Refuted: that the other robots are still ready when one terminates, that a newer pose is never replaced by an older one, and that two robots that have updated equally often agree on the weight of their edge.", "quantifier": "for all numbers of robots, parameters, calls, message contents and all schedules of sending and delivery; weights over the reals", "why_tests_cant": "The schedules of deliveries are unbounded and the bad ones need particular orders of stale messages; tests run one order, mostly the lockstep of the example program.", "anchors": ["examples/MultiRobotExample.cpp:main", "src/PGOAgent.cpp:getSharedPoseDict", "src/PGOAgent.cpp:getAuxSharedPoseDict", "src/PGOAgent.cpp:updateNeighborPoses", "src/PGOAgent.cpp:updateAuxNeighborPoses", "src/PGOAgent.cpp:shouldTerminate", "src/PGOAgent.cpp:updateMeasurementWeights", "include/DPGO/PGOAgent.h:getStatus", "include/DPGO/PGOAgent.h:setNeighborStatus"]}
{"id": "C65", "title": "The team's cost never rises, in whatever order the robots work", "statement": "Take any number of initialised agents without acceleration, each storing exactly the measurements of a dataset that touch it (with the same weights), and any further execution: messages sent and delivered at will, in any order, late or repeated, the optimisation threads started and stopped, and optimising steps (called or taken by the thread) of any robots in any order. If every optimising step is taken while the robot's cached neighbour poses equal their owners' present ones, and the optimiser does not raise the cost it is given, then the cost of the whole dataset at the robots' present estimates never rises; this holds for the robust costs, too, between weight updates. Robots without common edges may step at the same time from caches that were up to date before. Collecting the statuses and public poses of all neighbours before each step is enough, and with the plain cost then no call aborts. Refuted: for two robots that share an edge, simultaneous steps, each lowering the stepping robot's own cost, can raise the cost of the dataset.", "quantifier": "for all numbers of robots, datasets, estimates, non-raising optimisers and schedules of steps and messages, over the reals", "why_tests_cant": "The example program runs one schedule on a few datasets; the claim is about every interleaving of steps and deliveries and every dataset, and the counterexample needs steps taken from mutually stale caches.", "anchors": ["src/PGOAgent.cpp:iterate", "src/PGOAgent.cpp:updateX", "src/PGOAgent.cpp:updateNeighborPoses", "src/PGOAgent.cpp:getSharedPoseDict", "src/PGOAgent.cpp:startOptimizationLoop", "src/PGOAgent.cpp:runOptimizationLoop", "src/PoseGraph.cpp:constructG", "examples/MultiRobotExample.cpp:main"]}
{"id": "C66", "title": "Rounds of reweighting and careful steps never raise the team's robust cost", "statement": "Take any number of initialised agents without acceleration, each storing the measurements of a dataset that touch it with the same weights, at the same stage of the robust optimisation and with no restarts left. If all of them, in any order, update their measurement weights while all caches are up to date, no estimate changes, and afterwards the team again agrees on the data: every loop closure whose weight is not fixed carries the weight of its residual at the team's estimates, all other measurements are untouched, and every robot is at the next stage. If the team then works carefully in the sense of C65 (any order of steps and messages, each step from an up-to-date cache, with an optimiser that does not raise the cost it is given), the robust cost of the dataset - the sum of the losses of the residuals at the present estimates, whatever weights are stored - is not above its value before the weight update, for every supported cost (for L1 if no residual is 0). Any number of such rounds never raises it, as long as the annealing parameter stays the same. Refuted without the condition on restarts: an agent with restarts left goes back to its initial guess when updating weights, which can raise the robust cost.", "quantifier": "for all numbers of robots, datasets, estimates, robust costs and parameters, orders of the updates, schedules of steps and messages, and numbers of rounds, over the reals", "why_tests_cant": "The claim is about every dataset, interleaving and robust cost, and compares a quantity that no robot computes; a run on a dataset shows one decreasing sequence only.", "anchors": ["src/PGOAgent.cpp:updateMeasurementWeights", "src/PGOAgent.cpp:computeMeasurementResidual", "src/PGOAgent.cpp:iterate", "src/PGOAgent.cpp:updateX", "src/DPGO_robust.cpp:weight", "src/DPGO_robust.cpp:update", "src/PoseGraph.cpp:constructQ"]}
{"id": "C67", "title": "The matrices an agent optimises with are those of its current data", "statement": "Call a call spoiling if it changes weights or priors while the agent holds a quadratic matrix (setMeasurementWeight, initializeRobustOptimization, both anchorFirstPose, and with a robust cost initializeInGlobalFrame); reset, updateMeasurementWeights of an initialised agent, and switching a neighbour from active to inactive or back make it good again. After every history in which each spoiling call has been made good, whatever the agent does in iterate, in a pass of its optimisation thread or in restartNesterovAcceleration (with or without acceleration, including the restart inside an iteration) depends on the optimiser only through its answers on graphs that have exactly the agent's measurements, weights, priors and activity flags, the neighbour poses it received (or, with acceleration, the auxiliary ones), and a quadratic and a linear matrix equal to those that a graph without stored matrices builds from these. After any history at all, spoilt or not, the same holds except for the quadratic matrix: the linear matrix is always current. Refuted for the quadratic matrix after each of the spoiling calls: the next iteration uses the matrix of the old weights, or a linear matrix with the prior and a quadratic one without it.", "quantifier": "for all parameters, histories of calls, external solvers, optimisers and scalar types", "why_tests_cant": "Whether a stored matrix is stale depends on the whole order of calls; the claim is that no order without one of five particular situations produces a stale matrix, for any optimiser that might look at it.", "anchors": ["src/PGOAgent.cpp:updateX", "src/PGOAgent.cpp:iterate", "src/PGOAgent.cpp:restartNesterovAcceleration", "src/PGOAgent.cpp:setMeasurementWeight", "src/PGOAgent.cpp:initializeRobustOptimization", "src/PGOAgent.cpp:anchorFirstPose", "src/PGOAgent.cpp:initializeInGlobalFrame", "src/PGOAgent.cpp:updateMeasurementWeights", "src/PoseGraph.cpp:constructDataMatrices", "src/PoseGraph.cpp:setNeighborPoses", "src/PoseGraph.cpp:setPrior"]}
{"id": "C68", "title": "A pose anchored after the matrices were built makes the evaluated cost unbounded below", "statement": "Let a pose graph whose matrices are up to date build them, then receive a prior P on pose i, then neighbour poses (what an agent does after anchorFirstPose), inactive neighbours not being used. If the pose had a prior before, the problem evaluates exactly the least-squares cost with the new prior, up to its value at zero. If it had none, the problem evaluates the cost without that prior, minus 10000 times the inner product of the rotation parts of P and the pose, minus 100 times that of the translations: the prior enters as a linear pull without the quadratic term that would stop it. With up-to-date matrices and nonnegative weights the evaluated cost is bounded below by a constant. With the late prior it is not: for a graph without other priors and shared edges, and a prior with a nonzero translation, every trajectory can be moved by one common translation so that the value falls below any given number (rotations unchanged, so also on the manifold). The same holds for an agent: after any history of calls that leaves the stored matrix up to date, without shared edges and priors, anchoring its first pose off the origin makes the cost of the graph that its next update optimises unbounded below.", "quantifier": "for all histories that keep the matrices up to date, all priors, neighbour poses, trajectories and bounds, over the reals", "why_tests_cant": "Unboundedness is a statement about all trajectories and all bounds; a test sees one value of the function, which looks ordinary.", "anchors": ["src/PoseGraph.cpp:setPrior", "src/PoseGraph.cpp:constructQ", "src/PoseGraph.cpp:constructG", "src/PoseGraph.cpp:setNeighborPoses", "src/QuadraticProblem.cpp:f", "src/PGOAgent.cpp:anchorFirstPose", "src/PGOAgent.cpp:updateX"]}
{"id": "C69", "title": "The file of a sparse matrix lists its stored entries, and what it loses", "statement": "writeSparseMatrixToFile gives a file with exactly one line 'row,column,value' per stored entry of the matrix, ordered by rows and within a row by columns; no other file changes, and none if the file cannot be opened. If the text form tells apart the values that occur, two matrices with equal files have the same stored entries. The file does not determine the matrix otherwise: a further empty row and column leave it unchanged, so the size is lost, and values with equal text (the stream keeps its default six digits, unlike writeMatrixToFile, which asks for full precision) give equal files.", "quantifier": "for all sparse matrices, text forms without newlines, file systems and file names", "why_tests_cant": "Losslessness compares all pairs of matrices; a test writes a few and reads them back.", "anchors": ["src/DPGO_utils.cpp:writeSparseMatrixToFile"]}
