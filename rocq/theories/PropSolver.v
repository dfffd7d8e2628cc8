(** Properties C20-C24: averaging and projections. *)
From Coq Require Import List NArith Reals Sorted.
From Verif Require Import Base Num RSum Det ModelTypes ModelRobust ModelPoses ModelProblem ModelSolver SpecCost SpecSolver
  ProofsSolver ProofsGnc ProofsGnc2 ProofsSolverEx.
Import ListNotations.
Local Open Scope R_scope.

(** ** C20 *)
Theorem C20_translation_average : forall d tVec tau,
  tVec <> [] -> Forall (sized d 1) tVec -> Forall (fun y => 0 < y) tau ->
  exists t, singleTranslationAveraging tVec tau = Ok t /\ sized d 1 t /\
    forall x, let f := spread d 1 (in_force (length tVec) tau 1) tVec in
      f t <= f x /\ (f x <= f t -> forall i, (i < d)%nat -> x i O = t i O).
Proof. exact translation_average. Qed.
Print Assumptions C20_translation_average.

Example C20_example : ex_t <> [] /\ Forall (sized 2 1) ex_t /\ Forall (fun y => 0 < y) [1; 3] /\
  exists t, singleTranslationAveraging ex_t [1; 3] = Ok t /\ t 0%nat 0%nat = 3 / 2 /\ t 1%nat 0%nat = 3.
Proof. exact ex_t_ok. Qed.

(** ** C21 *)
Theorem C21_closest_rotation : forall svd determinant d M Q, svd_at svd d d M ->
  (forall A, mrows A = d -> mcols A = d -> determinant A = det d A) ->
  rotation d (projectToRotationGroup svd determinant M) /\
  (rotation d Q -> dist2 d d M (projectToRotationGroup svd determinant M) <= dist2 d d M Q).
Proof. exact rotation_projection. Qed.
Print Assumptions C21_closest_rotation.

Example C21_example_pos : svd_at (fun _ => (exU, exI)) 2 2 (mlit 2 2 [[3; -4]; [4; 3]]).
Proof. apply ex_svd_pos. split; [|split]; auto. Qed.
Example C21_example_neg : svd_at (fun _ => (exD, exI)) 2 2 (mlit 2 2 [[2; 0]; [0; -1]]) /\
  projectToRotationGroup (fun _ => (exD, exI)) det2 (mlit 2 2 [[2; 0]; [0; -1]]) 1%nat 1%nat = 1 /\
  forall A : Mx R, mrows A = 2%nat -> mcols A = 2%nat -> det2 A = det 2 A.
Proof. split; [apply ex_svd_neg; split; [|split]; auto|]. split; [exact ex_neg_value|exact det2_ok]. Qed.

Theorem C21_rotation_average : forall svd determinant d RVec kappa, RVec <> [] -> Forall (sized d d) RVec ->
  (forall M, mx_eq M (mkMx d d (wsum (in_force (length RVec) kappa 1) RVec)) -> svd_at svd d d M) ->
  (forall A, mrows A = d -> mcols A = d -> determinant A = det d A) ->
  exists Q, singleRotationAveraging svd determinant RVec kappa = Ok Q /\ rotation d Q /\
    forall Q', rotation d Q' ->
      spread d d (in_force (length RVec) kappa 1) RVec Q <= spread d d (in_force (length RVec) kappa 1) RVec Q'.
Proof. exact rotation_average. Qed.
Print Assumptions C21_rotation_average.

Example C21_example_average : Forall (sized 2 2) [exI; exRot90] /\
  (forall M, mx_eq M (mkMx 2 2 (wsum (in_force 2 [3; 4] 1) [exI; exRot90])) -> svd_at (fun _ => (exU, exI)) 2 2 M).
Proof. exact ex_rot_ok. Qed.

(** ** C22 *)
Theorem C22_closest_stiefel : forall svd r d M, sized r d M -> (d <= r)%nat -> svd_at svd r d M ->
  exists Y, projectToStiefelManifold svd M = Ok Y /\ stiefel r d Y /\
    (forall Y', stiefel r d Y' -> dist2 r d M Y <= dist2 r d M Y') /\
    (orthonormal r d M -> mx_eq Y M).
Proof. exact stiefel_projection. Qed.
Print Assumptions C22_closest_stiefel.

Theorem C22_wide_aborts : forall svd (M : Mx R), (mrows M < mcols M)%nat -> projectToStiefelManifold svd M = Abort.
Proof. exact stiefel_projection_wide. Qed.
Print Assumptions C22_wide_aborts.

Theorem C22_trajectory : forall svd r d n M, sized r ((d + 1) * n) M -> (d <= r)%nat ->
  (forall i B, (i < n)%nat -> mx_eq B (mblock M 0 (i * (d + 1)) r d) -> svd_at svd r d B) ->
  exists X, manifold_project svd r d n M = Ok X /\ sized r ((d + 1) * n) X /\
    (forall i, (i < n)%nat -> let B := mblock M 0 (i * (d + 1)) r d in let Y := mblock X 0 (i * (d + 1)) r d in
       stiefel r d Y /\ forall Y', stiefel r d Y' -> dist2 r d B Y <= dist2 r d B Y') /\
    (forall i a, (i < n)%nat -> X a (i * (d + 1) + d)%nat = M a (i * (d + 1) + d)%nat) /\
    ((forall i, (i < n)%nat -> orthonormal r d (mblock M 0 (i * (d + 1)) r d)) -> mx_eq X M).
Proof. exact manifold_projection. Qed.
Print Assumptions C22_trajectory.

Example C22_example : svd_at (fun _ => (exE32, exI)) 3 2 exM32 /\ sized 3 ((2 + 1) * 2) exM36 /\
  (forall i B, (i < 2)%nat -> mx_eq B (mblock exM36 0 (i * (2 + 1)) 3 2) -> svd_at (fun _ => (exE32, exI)) 3 2 B).
Proof. split; [apply ex_thin; split; [|split]; auto|]. split; [split; reflexivity|exact ex_thin2]. Qed.

(** ** C23 *)
Theorem C23_rotation_inliers : forall svd determinant mudiv d RVec kappa thr,
  RVec <> [] -> Forall (sized d d) RVec -> Forall (fun y => 0 < y) kappa -> 0 < thr ->
  svd_sized svd d -> div_ok mudiv ->
  let n := length RVec in let k := in_force n kappa 1 in
  exists Q inl, robustSingleRotationAveraging svd determinant mudiv RVec kappa thr = Ok (Q, inl) /\
    StronglySorted lt inl /\ (forall i, In i inl -> (i < n)%nat /\ rot_residual d k RVec Q i < thr * thr) /\
    (exists Q0, singleRotationAveraging svd determinant RVec k = Ok Q0 /\
       ((forall i, (i < n)%nat -> rot_residual d k RVec Q0 i < thr * thr / 2) -> Q = Q0 /\ inl = seq 0 n)).
Proof. exact robust_rotation_inliers. Qed.
Print Assumptions C23_rotation_inliers.

Theorem C23_pose_inliers : forall svd determinant mudiv d RVec tVec kappa tau thr,
  RVec <> [] -> length tVec = length RVec -> Forall (sized d d) RVec -> Forall (sized d 1) tVec ->
  Forall (fun y => 0 < y) kappa -> Forall (fun y => 0 < y) tau -> 0 < thr ->
  svd_sized svd d -> div_ok mudiv ->
  let n := length RVec in let k := in_force n kappa 10000 in let s := in_force n tau 100 in
  exists Q t inl, robustSinglePoseAveraging svd determinant mudiv RVec tVec kappa tau thr = Ok (Q, t, inl) /\
    StronglySorted lt inl /\ (forall i, In i inl -> (i < n)%nat /\ pose_residual d k s RVec tVec Q t i < thr * thr) /\
    (exists Q0 t0, singlePoseAveraging svd determinant RVec tVec k s = Ok (Q0, t0) /\
       ((forall i, (i < n)%nat -> pose_residual d k s RVec tVec Q0 t0 i < thr * thr / 2) -> Q = Q0 /\ t = t0 /\ inl = seq 0 n)).
Proof. exact robust_pose_inliers. Qed.
Print Assumptions C23_pose_inliers.

(** The estimate is the average under the weights of the last call.  Unless the iteration limit was reached,
    the reported indices are exactly the candidates within the threshold. *)
Theorem C23_rotation_complete : forall svd determinant mudiv d RVec kappa thr,
  RVec <> [] -> Forall (sized d d) RVec -> Forall (fun y => 0 < y) kappa -> 0 < thr ->
  svd_sized svd d -> div_ok mudiv -> div_zero_big mudiv ->
  let n := length RVec in let k := in_force n kappa 1 in
  exists Q0 Q inl calls, singleRotationAveraging svd determinant RVec k = Ok Q0 /\
    robustRotation_calls svd determinant mudiv RVec kappa thr = Ok (Q, inl, calls) /\
    singleRotationAveraging svd determinant RVec (cwise k (last calls [])) = Ok Q /\
    ((forall i, (i < n)%nat -> rot_residual d k RVec Q0 i <= 1000000000000000 * (thr * thr)) ->
      length calls = 1001%nat \/ forall i, In i inl <-> (i < n)%nat /\ rot_residual d k RVec Q i < thr * thr).
Proof. exact robust_rotation_complete. Qed.
Print Assumptions C23_rotation_complete.

Theorem C23_pose_complete : forall svd determinant mudiv d RVec tVec kappa tau thr,
  RVec <> [] -> length tVec = length RVec -> Forall (sized d d) RVec -> Forall (sized d 1) tVec ->
  Forall (fun y => 0 < y) kappa -> Forall (fun y => 0 < y) tau -> 0 < thr ->
  svd_sized svd d -> div_ok mudiv -> div_zero_big mudiv ->
  let n := length RVec in let k := in_force n kappa 10000 in let s := in_force n tau 100 in
  exists Q0 t0 Q t inl calls, singlePoseAveraging svd determinant RVec tVec k s = Ok (Q0, t0) /\
    robustPose_calls svd determinant mudiv RVec tVec kappa tau thr = Ok (Q, t, inl, calls) /\
    singlePoseAveraging svd determinant RVec tVec (cwise k (last calls [])) (cwise s (last calls [])) = Ok (Q, t) /\
    ((forall i, (i < n)%nat -> pose_residual d k s RVec tVec Q0 t0 i <= 1000000000000000 * (thr * thr)) ->
      N.of_nat (length calls) = 10001%N \/
      forall i, In i inl <-> (i < n)%nat /\ pose_residual d k s RVec tVec Q t i < thr * thr).
Proof. exact robust_pose_complete. Qed.
Print Assumptions C23_pose_complete.

Example C23_example_division : div_ok ex_mudiv /\ div_zero_big ex_mudiv.
Proof. exact ex_mudiv_ok. Qed.

Example C23_example : ex_cand_R <> [] /\ length ex_cand_t = length ex_cand_R /\
  Forall (sized 2 2) ex_cand_R /\ Forall (sized 2 1) ex_cand_t /\ svd_sized ex_svd 2 /\ div_ok Rdiv.
Proof. exact ex_cand. Qed.

(** The threshold must be positive: with 0 every candidate is reported. *)
Theorem C23_zero_threshold_refuted : exists Q t,
  robustSinglePoseAveraging ex_svd det2 Rdiv ex_cand_R ex_cand_t [] [] 0 = Ok (Q, t, [0; 1; 2]%nat) /\
  0 * 0 < pose_residual 2 (in_force 3 [] 10000) (in_force 3 [] 100) ex_cand_R ex_cand_t Q t 2.
Proof. exact zero_threshold. Qed.
Print Assumptions C23_zero_threshold_refuted.

(** ** C24.  The last result component lists the weight vectors of all calls of the average. *)
Theorem C24_rotation_weights : forall svd determinant mudiv d RVec kappa thr,
  RVec <> [] -> Forall (sized d d) RVec -> Forall (fun y => 0 < y) kappa -> 0 < thr ->
  svd_sized svd d -> div_ok mudiv ->
  let n := length RVec in let k := in_force n kappa 1 in
  exists Q inl calls, robustRotation_calls svd determinant mudiv RVec kappa thr = Ok (Q, inl, calls) /\
    Forall (fun ws => length ws = n /\ 0 < rsumL (fun x => x) (cwise k ws)) calls /\ (length calls <= 1001)%nat.
Proof. exact robust_rotation_weights. Qed.
Print Assumptions C24_rotation_weights.

Theorem C24_pose_weights : forall svd determinant mudiv d RVec tVec kappa tau thr,
  RVec <> [] -> length tVec = length RVec -> Forall (sized d d) RVec -> Forall (sized d 1) tVec ->
  Forall (fun y => 0 < y) kappa -> Forall (fun y => 0 < y) tau -> 0 < thr ->
  svd_sized svd d -> div_ok mudiv ->
  let n := length RVec in let k := in_force n kappa 10000 in let s := in_force n tau 100 in
  exists Q t inl calls, robustPose_calls svd determinant mudiv RVec tVec kappa tau thr = Ok (Q, t, inl, calls) /\
    Forall (fun ws => length ws = n /\ 0 < rsumL (fun x => x) (cwise k ws) /\ 0 < rsumL (fun x => x) (cwise s ws)) calls /\
    (N.of_nat (length calls) <= 10001)%N.
Proof. exact robust_pose_weights. Qed.
Print Assumptions C24_pose_weights.

Example C24_example : ex_cand_R <> [] /\ length ex_cand_t = length ex_cand_R /\
  Forall (sized 2 2) ex_cand_R /\ Forall (sized 2 1) ex_cand_t /\ svd_sized ex_svd 2 /\ div_ok Rdiv.
Proof. exact ex_cand. Qed.
