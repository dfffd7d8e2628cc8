(** The multi-robot example program (C56). *)
From Coq Require Import List NArith ZArith Bool Reals.
From Verif Require Import Base Num RSum Det ModelTypes ModelPoseGraph ModelPoses ModelProblem ModelSolver ModelChordal ModelOptimizer ModelInit ModelAgent ModelExample ModelExampleRun
  SpecPoseGraph SpecPGHist SpecCost SpecSolver SpecOptimizer SpecFrames SpecInit SpecExample SpecRun ProofsSolverEx ProofsInit ProofsInit2 ProofsInitEx ProofsFramesEx ProofsRun8 ProofsRun9 ProofsRunEx.
Import ListNotations.
Local Open Scope R_scope.

(** ** C56 *)
(** The program runs to its end without a failed check, and every line it prints
    is right. *)
Theorem C56_runs : forall x ls St (L : Lib R St) chordal opt d r n m ds acc iters X0 T,
  dataset_ok d r n m ds -> inverse_ok (x_minv x) d -> mrows (x_fixedY x d r) = r -> mcols (x_fixedY x d r) = d -> SpecRun.svd_sized x r d ->
  (forall i, opt_sized (opt i)) -> (N.of_nat iters < 4294967296)%N -> whole d r n X0 ->
  chordal ds = Ok T -> mrows (pa_X T) = d -> mcols (pa_X T) = (N.to_nat n * S d)%nat ->
  exists ags out Xs Ds, example x ls L chordal opt r acc iters X0 m n ds = Ok (Some (ags, out)) /\
    printed d r n m ds (l_proj L) iters out Xs Ds /\ finished d r n m (last Xs (mmul (x_fixedY x d r) (pa_X T))) ags.
Proof. exact example_runs. Qed.
Print Assumptions C56_runs.

(** Without acceleration the printed costs never increase. *)
Theorem C56_descends : forall x ls St (L : Lib R St) chordal opt d r n m ds iters X0 T,
  dataset_ok d r n m ds -> inverse_ok (x_minv x) d -> mrows (x_fixedY x d r) = r -> mcols (x_fixedY x d r) = d -> SpecRun.svd_sized x r d ->
  (forall i, opt_sized (opt i) /\ descending (opt i)) -> (N.of_nat iters < 4294967296)%N -> whole d r n X0 ->
  chordal ds = Ok T -> mrows (pa_X T) = d -> mcols (pa_X T) = (N.to_nat n * S d)%nat ->
  exists ags out, example x ls L chordal opt r false iters X0 m n ds = Ok (Some (ags, out)) /\
    (forall ln, nth_error out 0 = Some ln -> ln_cost ln <= 2 * dataset_cost r d ds (mmul (x_fixedY x d r) (pa_X T))) /\
    forall j ln ln', nth_error out j = Some ln -> nth_error out (S j) = Some ln' -> ln_cost ln' <= ln_cost ln.
Proof. exact example_descends. Qed.
Print Assumptions C56_descends.

(** The wrapper around the trust-region solver is such an optimiser. *)
Theorem C56_optimizer : forall St (L : PoseGraph R -> Lib R St) p opt, ro_rtr p = true -> descent_solver L (ro_iters p =? 1)%Z -> is_wrapper L p opt ->
  (forall g X g1 v, qp_f g X = Ok (g1, v) -> exists g' X' rr runs, optimize (L g) p g X = Ok (g', X', rr, runs)) /\ opt_sized opt /\ descending opt.
Proof. exact wrapper_ok. Qed.
Print Assumptions C56_optimizer.

Example C56_optimizer_case : ro_rtr ci_params = true /\ descent_solver glib (ro_iters ci_params =? 1)%Z /\ is_wrapper glib ci_params (rn_opt 0).
Proof. exact (conj eq_refl (conj (glib_descends _) (rn_wrapper 0))). Qed.

(** Two robots, four poses, odometry and a loop closure; the start has a positive
    cost; a thousand iterations with acceleration. *)
Example C56_runs_case : dataset_ok 2 3 4 2 rn_ds /\ inverse_ok (x_minv rx) 2 /\ mrows rn_Y = 3%nat /\ mcols rn_Y = 2%nat /\ SpecRun.svd_sized rx 3 2 /\
  (forall i, opt_sized (rn_opt i) /\ descending (rn_opt i)) /\ whole 2 3 4 (mzero 3 12) /\
  mrows (pa_X rn_flat) = 2%nat /\ mcols (pa_X rn_flat) = 12%nat /\ 0 < dataset_cost 3 2 rn_ds (mmul rn_Y (pa_X rn_flat)) /\
  exists ags ln out, example rx rls rn_lib (fun _ => Ok rn_flat) rn_opt 3 true 1000 (mzero 3 12) 2 4 rn_ds = Ok (Some (ags, ln :: out)) /\ ln_robot ln = 0%N.
Proof. exact rn_run_case. Qed.

(** Noise-free data: every printed cost is zero. *)
Theorem C56_exact : forall x ls St (L : Lib R St) qr svd determinant opt d r n m ds iters X0 (Rt tt : nat -> Mx R) B1 B2 B3,
  dataset_ok d r n m ds -> inverse_ok (x_minv x) d -> mrows (x_fixedY x d r) = r -> mcols (x_fixedY x d r) = d -> SpecRun.svd_sized x r d ->
  (forall i, opt_sized (opt i) /\ descending (opt i)) -> (N.of_nat iters < 4294967296)%N -> whole d r n X0 ->
  (n * N.of_nat (d * d) < two32)%N -> (forall e, In e ds -> 0 < mkappa e /\ 0 < mtau e) ->
  (forall i, (i < N.to_nat n)%nat -> rotation d (Rt i)) ->
  (forall e, In e ds -> consistent d e (Rt (N.to_nat (mp1 e))) (tt (N.to_nat (mp1 e))) (Rt (N.to_nat (mp2 e))) (tt (N.to_nat (mp2 e)))) ->
  constructBMatrices ds = Ok (B1, B2, B3) ->
  solves_if_possible qr (last_cols ((N.to_nat n - 1) * (d * d)) B3) -> solves_if_possible qr (last_cols (d * (N.to_nat n - 1)) B1) ->
  SpecSolver.svd_sized svd d -> (forall M, rotation d M -> svd_at svd d d M) -> (forall A, mrows A = d -> mcols A = d -> determinant A = det d A) ->
  exists ags out, example x ls L (chordalInitialization qr svd determinant) opt r false iters X0 m n ds = Ok (Some (ags, out)) /\
    forall ln, In ln out -> ln_cost ln = 0.
Proof. exact example_exact. Qed.
Print Assumptions C56_exact.

Example C56_exact_case : (4 * N.of_nat (2 * 2) < two32)%N /\ (forall e, In e rn_ds -> 0 < mkappa e /\ 0 < mtau e) /\
  (forall i, (i < N.to_nat 4)%nat -> rotation 2 (rnR i)) /\
  (forall e, In e rn_ds -> consistent 2 e (rnR (N.to_nat (mp1 e))) (rnt (N.to_nat (mp1 e))) (rnR (N.to_nat (mp2 e))) (rnt (N.to_nat (mp2 e)))) /\
  SpecSolver.svd_sized csvd 2 /\ (forall M, rotation 2 M -> svd_at csvd 2 2 M) /\ (forall A, mrows A = 2%nat -> mcols A = 2%nat -> det2 A = det 2 A) /\
  exists B1 B2 B3, constructBMatrices rn_ds = Ok (B1, B2, B3) /\
    solves_if_possible fqr (last_cols ((N.to_nat 4 - 1) * (2 * 2)) B3) /\ solves_if_possible fqr (last_cols (2 * (N.to_nat 4 - 1)) B1) /\
  exists ags ln out, example rx rls rn_lib (chordalInitialization fqr csvd det2) rn_opt 3 false 1000 (mzero 3 12) 2 4 rn_ds = Ok (Some (ags, ln :: out)) /\ ln_cost ln = 0.
Proof. exact rn_exact_case. Qed.

(** The program accepts any number of robots up to the number of poses, but a
    robot without an odometry edge never leaves its waiting state, and setX
    aborts: the run has no result. *)
Theorem C56_no_odometry_refuted : forall x ls St (L : Lib R St) chordal opt r acc iters X0 n m ds k,
  sizes_ok n m -> Forall (edge_in n) ds -> (k < m)%N ->
  (forall e, In e ds -> next_pose e = true -> owns n m k (mp1 e) -> ~ owns n m k (mp2 e)) ->
  forall out, example x ls L chordal opt r acc iters X0 m n ds <> Ok out.
Proof. exact example_no_odometry. Qed.
Print Assumptions C56_no_odometry_refuted.

(** In particular with fewer than two poses per robot. *)
Theorem C56_one_pose_refuted : forall x ls St (L : Lib R St) chordal opt r acc iters X0 n m ds,
  sizes_ok n m -> Forall (edge_in n) ds -> (2 <= m)%N -> (n / m = 1)%N ->
  forall out, example x ls L chordal opt r acc iters X0 m n ds <> Ok out.
Proof. exact example_one_pose. Qed.
Print Assumptions C56_one_pose_refuted.

Example C56_one_pose_case : sizes_ok 2 2 /\ Forall (edge_in 2) [ci01] /\ (2 / 2 = 1)%N /\
  example rx rls rn_lib (fun _ => Ok rn_two) rn_opt 3 true 1000 (mzero 3 6) 2 2 [ci01] = Abort.
Proof. exact rn_short_case. Qed.
