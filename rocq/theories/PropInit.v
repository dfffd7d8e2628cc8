(** Chordal initialisation (C53) and the centralised solver (C54). *)
From Coq Require Import List NArith ZArith Bool Reals.
From Verif Require Import Base Num RSum Det ModelTypes ModelPoseGraph ModelPoses ModelSolver ModelChordal ModelOptimizer ModelInit
  SpecPoseGraph SpecPGHist SpecCost SpecSolver SpecInit ProofsSolverEx ProofsInit ProofsInit2 ProofsInit3 ProofsInit4 ProofsInitEx.
Import ListNotations.
Local Open Scope R_scope.

(** ** C53 *)
(** The relaxed rotations minimise the rotation cost among all matrices with the
    first one fixed; the rounded ones are closest rotations; the translations
    minimise the translation cost for them. *)
Theorem C53_relaxation : forall qr svd determinant d n ms B1 B2 B3,
  (d = 2 \/ d = 3)%nat -> pose_count ms (N.of_nat n) -> (N.of_nat n * N.of_nat (d * d) < two32)%N ->
  (forall m, In m ms -> meas_sized d m /\ 0 <= mkappa m /\ 0 <= mtau m) ->
  constructBMatrices ms = Ok (B1, B2, B3) ->
  (forall c, least_squares (last_cols ((n - 1) * (d * d)) B3) c (qr (last_cols ((n - 1) * (d * d)) B3) c)) ->
  (forall c, least_squares (last_cols (d * (n - 1)) B1) c (qr (last_cols (d * (n - 1)) B1) c)) ->
  svd_sized svd d -> (forall A, mrows A = d -> mcols A = d -> determinant A = det d A) ->
  exists T Q, chordalInitialization qr svd determinant ms = Ok T /\ traj d n T /\
    (forall a c, (a < d)%nat -> (c <= d)%nat -> pblk T 0 a c = if Nat.eqb a c then 1 else 0) /\
    (forall a c, (a < d)%nat -> (c < d)%nat -> Q 0%nat a c = if Nat.eqb a c then 1 else 0) /\
    (forall Q', (forall a c, (a < d)%nat -> (c < d)%nat -> Q' 0%nat a c = if Nat.eqb a c then 1 else 0) ->
       rot_cost d ms Q <= rot_cost d ms Q') /\
    (forall i, (1 <= i < n)%nat -> exists M, sized d d M /\ (forall a c, (a < d)%nat -> (c < d)%nat -> M a c = Q i a c) /\
       (svd_at svd d d M -> rot_block d (pblk T i) /\
          forall P, rotation d P -> dist2 d d (Q i) (pblk T i) <= dist2 d d (Q i) P)) /\
    (forall t, trans_cost d ms (pblk T) (fun i a => pblk T i a d) <= trans_cost d ms (pblk T) t).
Proof. exact chordal_relaxation. Qed.
Print Assumptions C53_relaxation.

Example C53_relaxation_case : pose_count [ci01; ci12] (N.of_nat 3) /\
  (forall m, In m [ci01; ci12] -> meas_sized 2 m /\ 0 <= mkappa m /\ 0 <= mtau m) /\
  svd_sized csvd 2 /\ (forall A : Mx R, mrows A = 2%nat -> mcols A = 2%nat -> det2 A = det 2 A) /\
  exists B1 B2 B3, constructBMatrices [ci01; ci12] = Ok (B1, B2, B3) /\
  (forall c, least_squares (last_cols 8 B3) c (fqr (last_cols 8 B3) c)) /\
  (forall c, least_squares (last_cols 4 B1) c (fqr (last_cols 4 B1) c)).
Proof. exact ci_relaxation_case. Qed.

(** Noise-free data on a connected graph: the true poses, seen from pose 0. *)
Theorem C53_exact : forall qr svd determinant d n ms (Rt tt : nat -> Mx R) B1 B2 B3,
  (d = 2 \/ d = 3)%nat -> pose_count ms (N.of_nat n) -> (N.of_nat n * N.of_nat (d * d) < two32)%N ->
  (forall m, In m ms -> meas_sized d m /\ 0 < mkappa m /\ 0 < mtau m) ->
  (forall i, (i < n)%nat -> rotation d (Rt i)) ->
  (forall m, In m ms -> consistent d m (Rt (N.to_nat (mp1 m))) (tt (N.to_nat (mp1 m))) (Rt (N.to_nat (mp2 m))) (tt (N.to_nat (mp2 m)))) ->
  (forall i, (i < N.of_nat n)%N -> reached ms i) ->
  constructBMatrices ms = Ok (B1, B2, B3) ->
  solves_if_possible qr (last_cols ((n - 1) * (d * d)) B3) -> solves_if_possible qr (last_cols (d * (n - 1)) B1) ->
  svd_sized svd d -> (forall M, rotation d M -> svd_at svd d d M) -> (forall A, mrows A = d -> mcols A = d -> determinant A = det d A) ->
  exists T, chordalInitialization qr svd determinant ms = Ok T /\ traj d n T /\
    forall i a, (i < n)%nat -> (a < d)%nat ->
      (forall c, (c < d)%nat -> pblk T i a c = seen_rot d Rt i a c) /\ pblk T i a d = seen_pos d Rt tt i a.
Proof. exact chordal_exact. Qed.
Print Assumptions C53_exact.

Example C53_exact_case : exists B1 B2 B3 T, constructBMatrices [ci01; ci12; ci02] = Ok (B1, B2, B3) /\
  solves_if_possible fqr (last_cols 8 B3) /\ solves_if_possible fqr (last_cols 4 B1) /\
  (forall M, rotation 2 M -> svd_at csvd 2 2 M) /\
  chordalInitialization fqr csvd det2 [ci01; ci12; ci02] = Ok T /\
  pblk T 1 0%nat 1%nat = 1 /\ pblk T 1 1%nat 0%nat = -1 /\ pblk T 1 0%nat 2%nat = 2 /\ pblk T 1 1%nat 2%nat = -2 /\
  pblk T 2 0%nat 2%nat = 3 /\ pblk T 2 1%nat 2%nat = 1.
Proof. exact ci_exact_case. Qed.

(** ** C54 *)
(** The result of solvePGO costs no more than its start (the given one or the
    chordal one), over the measurements kept: the first of every pair of poses. *)
Theorem C54_not_worse : forall qr svd determinant St (L : PoseGraph R -> Lib R St) p k d n ms T0 Ti,
  single_problem k d n ms -> ro_rtr p = true ->
  T0 = Some Ti \/ T0 = None /\ chordalInitialization qr svd determinant ms = Ok Ti -> traj d n Ti ->
  descent_solver L (ro_iters p =? 1)%Z ->
  exists T, solvePGO qr svd determinant L ms p T0 = Ok T /\ traj d n T /\ mx_cost d (firsts ms) (pa_X T) <= mx_cost d (firsts ms) (pa_X Ti).
Proof. exact solve_not_worse. Qed.
Print Assumptions C54_not_worse.

(** Noise-free data on a connected graph: whatever the descending solver does,
    the result costs 0 and is the true configuration up to the frame of pose 0. *)
Theorem C54_exact : forall qr svd determinant St (L : PoseGraph R -> Lib R St) p k d n ms (Rt tt : nat -> Mx R) B1 B2 B3,
  single_problem k d n ms -> (N.of_nat n * N.of_nat (d * d) < two32)%N ->
  (forall m, In m ms -> 0 < mweight m /\ 0 < mkappa m /\ 0 < mtau m) ->
  (forall i, (i < n)%nat -> rotation d (Rt i)) ->
  (forall m, In m ms -> consistent d m (Rt (N.to_nat (mp1 m))) (tt (N.to_nat (mp1 m))) (Rt (N.to_nat (mp2 m))) (tt (N.to_nat (mp2 m)))) ->
  (forall i, (i < N.of_nat n)%N -> reached ms i) ->
  constructBMatrices ms = Ok (B1, B2, B3) ->
  solves_if_possible qr (last_cols ((n - 1) * (d * d)) B3) -> solves_if_possible qr (last_cols (d * (n - 1)) B1) ->
  svd_sized svd d -> (forall M, rotation d M -> svd_at svd d d M) -> (forall A, mrows A = d -> mcols A = d -> determinant A = det d A) ->
  ro_rtr p = true -> descent_solver L (ro_iters p =? 1)%Z ->
  exists T, solvePGO qr svd determinant L ms p None = Ok T /\ traj d n T /\ mx_cost d ms (pa_X T) = 0 /\
    forall i a, (i < n)%nat -> (a < d)%nat ->
      (forall c, (c < d)%nat -> pblk T i a c = rsum d (fun b => pblk T 0 a b * seen_rot d Rt i b c)) /\
      pblk T i a d = pblk T 0 a d + rsum d (fun b => pblk T 0 a b * seen_pos d Rt tt i b).
Proof. exact solve_exact. Qed.
Print Assumptions C54_exact.

Example C54_case : single_problem 0 2 3 [ci01; ci12; ci02] /\ ro_rtr ci_params = true /\ traj 2 3 ci_flat /\
  descent_solver glib (ro_iters ci_params =? 1)%Z /\
  0 < mx_cost 2 (firsts [ci01; ci12; ci02]) (pa_X ci_flat) /\
  (forall m, In m [ci01; ci12; ci02] -> 0 < mweight m /\ 0 < mkappa m /\ 0 < mtau m) /\
  exists T T', solvePGO fqr csvd det2 glib [ci01; ci12; ci02] ci_params (Some ci_flat) = Ok T /\
    solvePGO fqr csvd det2 glib [ci01; ci12; ci02] ci_params None = Ok T' /\ mx_cost 2 [ci01; ci12; ci02] (pa_X T') = 0.
Proof. exact ci_solve_case. Qed.
