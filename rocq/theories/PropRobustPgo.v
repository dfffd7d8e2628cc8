(** C58: graduated non-convexity over a pose graph. *)
From Coq Require Import List NArith ZArith Reals.
From Verif Require Import Base Num RSum Det ModelTypes ModelPoseGraph ModelRobust ModelPoses ModelSolver ModelChordal ModelOptimizer ModelInit
  SpecCost SpecRobust SpecSolver SpecInit SpecRobustPgo ProofsSolverEx ProofsGnc ProofsGnc2 ProofsInitEx ProofsRobustPgo ProofsRobustPgo2 ProofsRobustPgoEx.
Import ListNotations.
Local Open Scope R_scope.

(** The returned trajectory solves the problem with the returned weights; these
    are all 1 when every squared residual is below half the squared threshold, and
    otherwise the outcome of alternating solving and reweighting until every
    measurement is accepted or rejected. *)
Theorem C58_rounds : forall mudiv solve d n ms rp,
  (d = 2 \/ d = 3)%nat -> pose_count ms (N.of_nat n) -> (N.of_nat n < two32)%N ->
  (forall m, In m ms -> meas_sized d m /\ 0 <= mkappa m /\ 0 <= mtau m) ->
  (forall ms', same_but_weights ms ms' -> exists T, solve ms' = Ok T /\ traj d n T) ->
  costType rp = GNC_TLS -> 0 < GNCBarc rp -> (GNCMaxNumIters rp < two64)%N -> div_ok mudiv ->
  let c := GNCBarc rp in
  exists T0 T ms', solve ms = Ok T0 /\ solveRobustPGO mudiv solve ms rp = Ok (T, ms') /\ solve ms' = Ok T /\
    ((forall m, In m ms -> 2 * pgo_res d T0 m < c * c) -> ms' = map (set_mweight 1) ms) /\
    (forall m, In m ms -> (forall m', In m' ms -> pgo_res d T0 m' <= pgo_res d T0 m) -> c * c < 2 * pgo_res d T0 m ->
       exists k, (N.of_nat k <= GNCMaxNumIters rp)%N /\
         gnc_rounds solve d c (c * c / (2 * pgo_res d T0 m - c * c)) (GNCMuStep rp) ms k ms' /\
         (N.of_nat k = GNCMaxNumIters rp \/ (0 < k)%nat /\ Forall decided ms')).
Proof. exact robust_pgo. Qed.
Print Assumptions C58_rounds.

Example C58_rounds_example : pose_count [ci01; ci12; ci02] (N.of_nat 3) /\
  (forall m, In m [ci01; ci12; ci02] -> meas_sized 2 m /\ 0 <= mkappa m /\ 0 <= mtau m) /\
  (forall ms', exists T, flat_solve ms' = Ok T /\ traj 2 3 T) /\ div_ok ex_mudiv /\
  exists k ms', (0 < k <= 100)%nat /\ solveRobustPGO ex_mudiv flat_solve [ci01; ci12; ci02] rp_params = Ok (ci_flat, ms') /\
    gnc_rounds flat_solve 2 6 (9 / 35) (14 / 10) [ci01; ci12; ci02] k ms'.
Proof. exact rounds_case. Qed.

(** Verdicts and residuals of the last round. *)
Theorem C58_judged : forall solve d c mu0 step ms k ms',
  (forall m, In m ms -> 0 <= mkappa m /\ 0 <= mtau m) -> 0 < c -> 0 < mu0 -> 1 <= step ->
  gnc_rounds solve d c mu0 step ms (S k) ms' ->
  exists ms1 T, gnc_rounds solve d c mu0 step ms k ms1 /\ solve ms1 = Ok T /\
    forall m, In m ms' -> (mfixed m = true -> mweight m = 1) /\ (mfixed m = false ->
      0 <= mweight m <= 1 /\ mweight m = tls_weight (mu0 * step ^ k) c (pgo_res d T m) /\
      (1 - 1 / 100000000 < mweight m -> pgo_res d T m < c * c) /\
      (2 / 10000000000000000 <= mu0 -> mweight m < 1 / 100000000 -> c * c <= pgo_res d T m)).
Proof. exact robust_judged. Qed.
Print Assumptions C58_judged.

(** Noise-free data. *)
Theorem C58_exact : forall qr svd determinant St (L : PoseGraph R -> Lib R St) mudiv p rp k d n ms (Rt tt : nat -> Mx R) B1 B2 B3,
  single_problem k d n ms -> (N.of_nat n * N.of_nat (d * d) < two32)%N ->
  (forall m, In m ms -> 0 < mweight m /\ 0 < mkappa m /\ 0 < mtau m) ->
  (forall i, (i < n)%nat -> rotation d (Rt i)) ->
  (forall m, In m ms -> consistent d m (Rt (N.to_nat (mp1 m))) (tt (N.to_nat (mp1 m))) (Rt (N.to_nat (mp2 m))) (tt (N.to_nat (mp2 m)))) ->
  (forall i, (i < N.of_nat n)%N -> reached ms i) ->
  constructBMatrices ms = Ok (B1, B2, B3) ->
  solves_if_possible qr (last_cols ((n - 1) * (d * d)) B3) -> solves_if_possible qr (last_cols (d * (n - 1)) B1) ->
  svd_sized svd d -> (forall M, rotation d M -> svd_at svd d d M) -> (forall A, mrows A = d -> mcols A = d -> determinant A = det d A) ->
  ro_rtr p = true -> descent_solver L (ro_iters p =? 1)%Z ->
  costType rp = GNC_TLS -> 0 < GNCBarc rp -> div_ok mudiv ->
  exists T, solveRobustPGO mudiv (fun ms => solvePGO qr svd determinant L ms p None) ms rp = Ok (T, map (set_mweight 1) ms) /\ traj d n T /\
    forall i a, (i < n)%nat -> (a < d)%nat ->
      (forall c, (c < d)%nat -> pblk T i a c = rsum d (fun b => pblk T 0 a b * seen_rot d Rt i b c)) /\
      pblk T i a d = pblk T 0 a d + rsum d (fun b => pblk T 0 a b * seen_pos d Rt tt i b).
Proof. exact robust_exact. Qed.
Print Assumptions C58_exact.

Example C58_exact_example : exists B1 B2 B3 T, single_problem 0 2 3 [ci01; ci12; ci02] /\
  constructBMatrices [ci01; ci12; ci02] = Ok (B1, B2, B3) /\
  solves_if_possible fqr (last_cols 8 B3) /\ solves_if_possible fqr (last_cols 4 B1) /\
  descent_solver glib (ro_iters ci_params =? 1)%Z /\ div_ok ex_mudiv /\
  solveRobustPGO ex_mudiv (fun ms => solvePGO fqr csvd det2 glib ms ci_params None) [ci01; ci12; ci02] rp_params = Ok (T, [ci01; ci12; ci02]).
Proof. exact exact_case. Qed.

(** Finding: with twice the largest squared residual equal to the squared
    threshold, all weights become NaN although every residual is below it. *)
Theorem C58_infinite_mu_refuted : exists (solve : list (Meas XR) -> res (PoseArr XR)) ms rp T ms',
  (forall l, solve l = Ok T) /\ costType rp = GNC_TLS /\ GNCBarc rp = Fin 2 /\ (0 < GNCMaxNumIters rp)%N /\
  solveRobustPGO ndiv solve ms rp = Ok (T, ms') /\ ms' <> [] /\
  forall m, In m ms' -> pgo_error T m = Ok (Fin 2) /\ mweight m = XNaN.
Proof. exact infinite_mu. Qed.
Print Assumptions C58_infinite_mu_refuted.

