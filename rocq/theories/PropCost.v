(** Properties C10-C15, C47, C49: the cost function. *)
From Coq Require Import List NArith Reals Permutation.
From Verif Require Import Base Num RSum ModelTypes ModelPoseGraph ModelProblem ModelChordal SpecPoseGraph SpecPGHist SpecCost
  ProofsCost2 ProofsCost4 ProofsChordal ProofsCostEx.
Import ListNotations.
Local Open Scope R_scope.

(** ** C10 *)
Theorem C10_cost_identity : forall id r d os (g : PoseGraph R) X g' v,
  clean id r d os g -> nposes_ok g -> qp_f g X = Ok (g', v) ->
  v = local_cost g X - local_cost g (fun _ _ => 0).
Proof. exact cost_identity. Qed.
Print Assumptions C10_cost_identity.

Theorem C10_cost_defined : forall id r d os (g : PoseGraph R) X,
  clean id r d os g -> needed_known g -> no_self g -> last_private g ->
  mrows X = r -> mcols X = (S d * N.to_nat (pg_n g))%nat -> exists g' v, qp_f g X = Ok (g', v).
Proof. exact cost_defined. Qed.
Print Assumptions C10_cost_defined.

Example C10_example : exists g g' v, clean 0 3 2 exR_ops g /\ nposes_ok g /\ qp_f g (exR_X 3 3) = Ok (g', v) /\
  length (pg_shared g) = 2%nat /\ length (pg_priors g) = 1%nat /\ length (pg_odom g ++ pg_priv g) = 3%nat.
Proof. exact exR_cost. Qed.

(** ** C11 *)
Theorem C11_derivatives : forall id r d os (g : PoseGraph R) X V t g1 v g2 D g3 Hs,
  clean id r d os g ->
  qp_f g X = Ok (g1, v) -> qp_grad g X = Ok (g2, D) -> qp_hess g V = Ok (g3, Hs) -> same_size V X = true ->
  qp_f g (madd X (mscal t V)) = Ok (g1, v + t * mdot D V + t * t / 2 * mdot V Hs).
Proof. exact derivatives. Qed.
Print Assumptions C11_derivatives.

Theorem C11_derivatives_defined : forall id r d os (g : PoseGraph R) X V g1 v,
  clean id r d os g -> qp_f g X = Ok (g1, v) -> same_size V X = true ->
  (exists g2 D, qp_grad g X = Ok (g2, D)) /\ (exists g3 Hs, qp_hess g V = Ok (g3, Hs)).
Proof. exact derivatives_defined. Qed.
Print Assumptions C11_derivatives_defined.

Example C11_example : exists g g1 v g2 D g3 Hs, clean 0 3 2 exR_ops g /\ qp_f g (exR_X 3 3) = Ok (g1, v) /\
  qp_grad g (exR_X 3 3) = Ok (g2, D) /\ qp_hess g (exR_X 3 3) = Ok (g3, Hs) /\ same_size (exR_X 3 3) (exR_X 3 3) = true.
Proof. exact exR_derivatives. Qed.

(** ** C12 *)
Theorem C12_psd_cholesky : forall id r d os (g g' : PoseGraph R) Q,
  clean id r d os g -> (forall m, In m (measurements g) -> nonneg_meas m) ->
  quadraticMatrix g = Ok (g', Q) ->
  mcols Q = mrows Q /\
  (forall i j, (i < mrows Q)%nat -> (j < mrows Q)%nat -> Q i j = Q j i) /\
  (forall V, mcols V = mrows Q -> 0 <= mdot V (mmul V Q)) /\
  (forall x, (exists i, (i < mrows Q)%nat /\ x i <> 0) ->
     0 < rsum (mrows Q) (fun i => rsum (mrows Q) (fun j => x i * precon_matrix Q i j * x j))) /\
  exists L : nat -> nat -> R, (forall i k, (i < k)%nat -> L i k = 0) /\ (forall i, (i < mrows Q)%nat -> 0 < L i i) /\
    forall i j, (i < mrows Q)%nat -> (j < mrows Q)%nat ->
      rsum (mrows Q) (fun k => L i k * L j k) = precon_matrix Q i j.
Proof. exact Q_psd. Qed.
Print Assumptions C12_psd_cholesky.

Theorem C12_factorised_matrix : forall (Q : Mx R) i j,
  mrows (precon_matrix Q) = mrows Q /\ mcols (precon_matrix Q) = mcols Q /\
  precon_matrix Q i j = Q i j + (if Nat.eq_dec i j then 1 / 10 else 0).
Proof. exact precon_value. Qed.
Print Assumptions C12_factorised_matrix.

Example C12_example : exists g g' Q, clean 0 3 2 exR_ops g /\ (forall m, In m (measurements g) -> nonneg_meas m) /\
  quadraticMatrix g = Ok (g', Q) /\ mrows Q = 9%nat.
Proof. exact exR_psd. Qed.

(** ** C13 *)
Theorem C13_gauge_invariance : forall id r d os (g : PoseGraph R) O v (X X' : Mx R) g' f,
  clean id r d os g -> pg_shared g = [] -> pg_priors g = [] ->
  orthonormal r r O -> moved r d (N.to_nat (pg_n g)) O v X X' -> same_size X' X = true ->
  qp_f g X = Ok (g', f) -> qp_f g X' = Ok (g', f).
Proof. exact gauge. Qed.
Print Assumptions C13_gauge_invariance.

Example C13_example : exists g g' f, clean 0 3 2 (map PAdd exR_priv) g /\ pg_shared g = [] /\ pg_priors g = [] /\
  orthonormal 3 3 exR_O /\ moved 3 2 (N.to_nat (pg_n g)) exR_O exR_v (exR_X 3 3) (exR_moved (exR_X 3 3)) /\
  same_size (exR_moved (exR_X 3 3)) (exR_X 3 3) = true /\ qp_f g (exR_X 3 3) = Ok (g', f) /\ pg_n g = 3%N.
Proof. exact exR_gauge. Qed.

(** ** C14 *)
Theorem C14_lifting_cost : forall id r d os os0 (g0 g : PoseGraph R) Y T g1 v0 g2 v,
  clean id d d os0 g0 -> clean id r d os g -> nposes_ok g0 -> nposes_ok g ->
  lifted Y g0 g -> orthonormal r d Y ->
  qp_f g0 T = Ok (g1, v0) -> qp_f g (mmul Y T) = Ok (g2, v) -> v = v0.
Proof. exact lifting. Qed.
Print Assumptions C14_lifting_cost.

Theorem C14_unlift : forall Y T : Mx R, orthonormal (mrows Y) (mcols Y) Y -> mrows T = mcols Y ->
  mx_eq (mmul (mtr Y) (mmul Y T)) T.
Proof. exact unlift. Qed.
Print Assumptions C14_unlift.

Example C14_example : exists g0 g g1 v0 g2 v, clean 0 2 2 exR_ops0 g0 /\ clean 0 3 2 exR_ops1 g /\
  nposes_ok g0 /\ nposes_ok g /\ lifted exR_Y g0 g /\ orthonormal 3 2 exR_Y /\
  qp_f g0 (exR_X 2 3) = Ok (g1, v0) /\ qp_f g (mmul exR_Y (exR_X 2 3)) = Ok (g2, v).
Proof. exact exR_lift. Qed.

(** ** C15 *)
Theorem C15_local_change_is_central_change : forall r d M ids P (X X' : N -> Mx R) k os g g1 g2 v v',
  NoDup ids -> In k ids -> clean k r d os g -> knows k M g -> pg_priors g = P k -> current g X -> nposes_ok g ->
  qp_f g (X k) = Ok (g1, v) -> qp_f g (X' k) = Ok (g2, v') -> (forall j, j <> k -> X' j = X j) ->
  central_cost r d M ids P X' - central_cost r d M ids P X = v' - v.
Proof. exact team_change. Qed.
Print Assumptions C15_local_change_is_central_change.

Theorem C15_descent : forall r d M ids P (X X' : N -> Mx R),
  NoDup ids -> team_run r d M ids P X X' -> central_cost r d M ids P X' <= central_cost r d M ids P X.
Proof. exact team_descent. Qed.
Print Assumptions C15_descent.

Example C15_example : exists X X' : N -> Mx R, X 0%N 1%nat 1%nat <> X' 0%N 1%nat 1%nat /\ NoDup [0%N; 1%N] /\
  team_step 3 2 exR_team [0%N; 1%N] (fun _ => []) X X'.
Proof. exact exR_team_step. Qed.

(** ** C47 *)
Theorem C47_rotation_cost : forall ms (B1 B2 B3 : Mx R) v, constructBMatrices ms = Ok (B1, B2, B3) ->
  (forall m, In m ms -> 0 <= mkappa m) ->
  let d := edges_dim ms in
  rsum (mrows B3) (fun i => sq (mulv B3 v i)) =
  nsumL (fun m => mkappa m * rsum d (fun r => rsum d (fun l =>
     sq (v (N.to_nat (mp2 m) * (d * d) + r * d + l)%nat -
         rsum d (fun c => v (N.to_nat (mp1 m) * (d * d) + c * d + l)%nat * mR m c r))))) ms.
Proof. exact chordal_B3. Qed.
Print Assumptions C47_rotation_cost.

Theorem C47_translation_cost : forall ms (B1 B2 B3 : Mx R) t v, constructBMatrices ms = Ok (B1, B2, B3) ->
  (forall m, In m ms -> 0 <= mtau m) ->
  let d := edges_dim ms in
  mrows B2 = mrows B1 /\
  rsum (mrows B1) (fun i => sq (mulv B1 t i + mulv B2 v i)) =
  nsumL (fun m => mtau m * rsum d (fun l =>
     sq (t (N.to_nat (mp2 m) * d + l)%nat - t (N.to_nat (mp1 m) * d + l)%nat -
         rsum d (fun c => v (N.to_nat (mp1 m) * (d * d) + c * d + l)%nat * mt m c 0%nat)))) ms.
Proof. exact chordal_B12. Qed.
Print Assumptions C47_translation_cost.

Theorem C47_matrices_defined : forall ms : list (Meas R),
  forallb (meas_has_dim (edges_dim ms)) ms = true ->
  exists B1 B2 B3, constructBMatrices ms = Ok (B1, B2, B3).
Proof. exact b_defined. Qed.
Print Assumptions C47_matrices_defined.

Example C47_example : exists B1 B2 B3, constructBMatrices exR_priv = Ok (B1, B2, B3) /\
  (forall m, In m exR_priv -> 0 <= mkappa m) /\ (forall m, In m exR_priv -> 0 <= mtau m) /\
  mrows B3 = 12%nat /\ mcols B3 = 12%nat /\ edges_dim exR_priv = 2%nat.
Proof. exact exR_chordal. Qed.

(** ** C49 *)
Theorem C49_error_value : forall m (R1 t1 R2 t2 : Mx R) r d v,
  mrows R1 = r -> mcols R1 = d -> mrows t1 = r -> mcols t1 = 1%nat -> mcols (mR m) = d ->
  computeMeasurementError m R1 t1 R2 t2 = Ok v ->
  v = mkappa m * rsum r (fun a => rsum d (fun c => sq (rsum d (fun b => R1 a b * mR m b c) - R2 a c))) +
      mtau m * rsum r (fun a => sq (t2 a 0%nat - t1 a 0%nat - rsum d (fun b => R1 a b * mt m b 0%nat))).
Proof. exact meas_error_value. Qed.
Print Assumptions C49_error_value.

Theorem C49_error_zero_iff_consistent : forall m (R1 t1 R2 t2 : Mx R) r d v,
  mrows R1 = r -> mcols R1 = d -> mrows t1 = r -> mcols t1 = 1%nat ->
  mcols (mR m) = d -> 0 <= mkappa m -> 0 <= mtau m ->
  computeMeasurementError m R1 t1 R2 t2 = Ok v ->
  0 <= v /\ (0 < mkappa m -> 0 < mtau m -> (v = 0 <-> consistent_in r d m R1 t1 R2 t2)).
Proof. exact meas_error_zero. Qed.
Print Assumptions C49_error_zero_iff_consistent.

Theorem C49_error_gauge : forall m (R1 t1 R2 t2 R1' t1' R2' t2' O p : Mx R) r d v,
  mrows R1 = r -> mcols R1 = d -> mrows t1 = r -> mcols t1 = 1%nat ->
  mcols (mR m) = d -> mrows O = r -> mcols O = r -> orthonormal r r O -> mrows p = r ->
  R1' = mmul O R1 -> R2' = mmul O R2 -> t1' = madd (mmul O t1) p -> t2' = madd (mmul O t2) p ->
  computeMeasurementError m R1 t1 R2 t2 = Ok v ->
  computeMeasurementError m R1' t1' R2' t2' = Ok v.
Proof. exact meas_error_gauge. Qed.
Print Assumptions C49_error_gauge.

Example C49_example : exists v, computeMeasurementError (exR_meas 0 0 0 1 1) (mident 2) (mlit 2 1 [[3]; [4]])
    (mlit 2 2 [[0; -1]; [1; 0]]) (mlit 2 1 [[4]; [5]]) = Ok v /\ v = 0.
Proof. exact exR_error. Qed.
