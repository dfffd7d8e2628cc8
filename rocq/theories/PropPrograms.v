(** C61: the single-robot programs. *)
From Coq Require Import List NArith ZArith Bool Arith Reals Permutation.
From Verif Require Import Base SMap Num RSum Det MatR ModelTypes ModelPoseGraph ModelProblem ModelRobust ModelPoses ModelSolver ModelChordal ModelOptimizer ModelInit ModelAgent ModelPrograms
  SpecPoseGraph SpecPGHist SpecCost SpecSolver SpecOptimizer SpecInit SpecAgent SpecFrames SpecExample SpecRun SpecRobust SpecRobustPgo
  ProofsGnc2 ProofsSolverEx ProofsInitEx ProofsFramesEx ProofsRobustPgoEx ProofsRunEx ProofsPrograms ProofsProgramsEx.
Import ListNotations.
Local Open Scope R_scope.

(** SingleRobotExample: for every dataset it accepts, the program prints twice the
    dataset cost of the trajectory it holds, which is not above that of the chordal
    initial guess. *)
Theorem C61_single : forall x ls qr svd dt St (L : PoseGraph R -> Lib R St) d n ds,
  dataset_ok d d n 1 ds -> (n * N.of_nat (d * d) < two32)%N -> (forall e, In e ds -> mfixed e = false) ->
  inverse_ok (x_minv x) d -> mrows (x_fixedY x d d) = d -> mcols (x_fixedY x d d) = d ->
  SpecSolver.svd_sized svd d -> descent_solver L false ->
  exists Ti X v, chordalInitialization qr svd dt (filter next_pose ds ++ filter (fun e => negb (next_pose e)) ds) = Ok Ti /\
    single_program x ls qr svd dt L ds = Ok (X, v) /\ whole d d n X /\
    v = 2 * dataset_cost d d ds X /\ v <= 2 * dataset_cost d d ds (pa_X Ti).
Proof. exact single_prints. Qed.
Print Assumptions C61_single.

Example C61_single_example : dataset_ok 2 2 3 1 [ci01; ci12; ci02] /\ (3 * N.of_nat (2 * 2) < two32)%N /\
  (forall e, In e [ci01; ci12; ci02] -> mfixed e = false /\ 0 < mkappa e /\ 0 < mtau e) /\
  inverse_ok (x_minv rx) 2 /\ mrows (x_fixedY rx 2 2) = 2%nat /\ mcols (x_fixedY rx 2 2) = 2%nat /\
  SpecSolver.svd_sized csvd 2 /\ descent_solver glib false /\ div_ok ex_mudiv.
Proof. exact prog_case. Qed.

(** On measurements that agree with true poses it prints 0 and returns those poses up
    to a change of frame. *)
Theorem C61_single_exact : forall x ls qr svd dt St (L : PoseGraph R -> Lib R St) d n ds (Rt tt : nat -> Mx R) B1 B2 B3,
  dataset_ok d d n 1 ds -> (n * N.of_nat (d * d) < two32)%N -> (forall e, In e ds -> mfixed e = false /\ 0 < mkappa e /\ 0 < mtau e) ->
  inverse_ok (x_minv x) d -> mrows (x_fixedY x d d) = d -> mcols (x_fixedY x d d) = d -> descent_solver L false ->
  (forall i, (i < N.to_nat n)%nat -> rotation d (Rt i)) ->
  (forall e, In e ds -> consistent d e (Rt (N.to_nat (mp1 e))) (tt (N.to_nat (mp1 e))) (Rt (N.to_nat (mp2 e))) (tt (N.to_nat (mp2 e)))) ->
  constructBMatrices (filter next_pose ds ++ filter (fun e => negb (next_pose e)) ds) = Ok (B1, B2, B3) ->
  solves_if_possible qr (last_cols ((N.to_nat n - 1) * (d * d)) B3) -> solves_if_possible qr (last_cols (d * (N.to_nat n - 1)) B1) ->
  SpecSolver.svd_sized svd d -> (forall M, rotation d M -> svd_at svd d d M) -> (forall A, mrows A = d -> mcols A = d -> dt A = det d A) ->
  exists X, single_program x ls qr svd dt L ds = Ok (X, 0) /\ whole d d n X /\
    forall i a, (i < N.to_nat n)%nat -> (a < d)%nat ->
      (forall c, (c < d)%nat -> pose_blk d X i a c = rsum d (fun b => pose_blk d X 0 a b * seen_rot d Rt i b c)) /\
      pose_blk d X i a d = pose_blk d X 0 a d + rsum d (fun b => pose_blk d X 0 a b * seen_pos d Rt tt i b).
Proof. exact single_exact. Qed.
Print Assumptions C61_single_exact.

Example C61_single_exact_example : exists B1 B2 B3 X, constructBMatrices (filter next_pose [ci01; ci12; ci02] ++ filter (fun e => negb (next_pose e)) [ci01; ci12; ci02]) = Ok (B1, B2, B3) /\
  solves_if_possible fqr (last_cols ((N.to_nat 3 - 1) * (2 * 2)) B3) /\ solves_if_possible fqr (last_cols (2 * (N.to_nat 3 - 1)) B1) /\
  single_program rx rls fqr csvd det2 glib [ci01; ci12; ci02] = Ok (X, 0).
Proof. exact one_exact_run. Qed.

(** ChordalInitializationExample: it prints the cost of the chordal initial guess over
    the first measurement of each pose pair, in any order of the dataset. *)
Theorem C61_chordal : forall qr svd dt d n ds,
  single_problem 0 d n ds -> (N.of_nat n * N.of_nat (d * d) < two32)%N -> SpecSolver.svd_sized svd d ->
  exists T, chordalInitialization qr svd dt ds = Ok T /\ traj d n T /\
    chordal_program qr svd dt ds = Ok (T, mx_cost d (firsts ds) (pa_X T)).
Proof. exact chordal_prints. Qed.
Print Assumptions C61_chordal.

Example C61_chordal_example : single_problem 0 2 3 rep_ds.
Proof. exact rep_single. Qed.

(** On agreeing measurements it prints 0 and the poses are the true ones seen from the
    first. *)
Theorem C61_chordal_exact : forall qr svd dt d n ds (Rt tt : nat -> Mx R) B1 B2 B3,
  single_problem 0 d n ds -> (N.of_nat n * N.of_nat (d * d) < two32)%N ->
  (forall e, In e ds -> 0 < mkappa e /\ 0 < mtau e) ->
  (forall i, (i < n)%nat -> rotation d (Rt i)) ->
  (forall e, In e ds -> consistent d e (Rt (N.to_nat (mp1 e))) (tt (N.to_nat (mp1 e))) (Rt (N.to_nat (mp2 e))) (tt (N.to_nat (mp2 e)))) ->
  (forall i, (i < N.of_nat n)%N -> reached ds i) ->
  constructBMatrices ds = Ok (B1, B2, B3) ->
  solves_if_possible qr (last_cols ((n - 1) * (d * d)) B3) -> solves_if_possible qr (last_cols (d * (n - 1)) B1) ->
  SpecSolver.svd_sized svd d -> (forall M, rotation d M -> svd_at svd d d M) -> (forall A, mrows A = d -> mcols A = d -> dt A = det d A) ->
  exists T, chordal_program qr svd dt ds = Ok (T, 0) /\ forall i a, (i < n)%nat -> (a < d)%nat ->
      (forall c, (c < d)%nat -> pblk T i a c = seen_rot d Rt i a c) /\ pblk T i a d = seen_pos d Rt tt i a.
Proof. exact chordal_prints_exact. Qed.
Print Assumptions C61_chordal_exact.

(** SingleRobotGNCExample: every solve starts at the odometry trajectory and does not
    raise its weighted cost; the weights returned are those of at most 20 GNC rounds with
    threshold 5 and step 1.4, and all 1 if no first residual reaches the threshold. *)
Theorem C61_gnc : forall qr svd dt St (L : PoseGraph R -> Lib R St) mudiv d n ds,
  dataset_ok d d n 1 ds -> (forall e, In e ds -> 0 <= mkappa e /\ 0 <= mtau e) -> descent_solver L false -> div_ok mudiv ->
  exists TO T0 T ms', let solve ms := solvePGO qr svd dt L ms (mkRO true 1 (1 / 1000) true 50 100) (Some TO) in
    odometryInitialization (filter next_pose ds) None = Ok TO /\
    (forall ms1, same_but_weights ds ms1 -> exists T1, solve ms1 = Ok T1 /\ traj d (N.to_nat n) T1 /\ mx_cost d ms1 (pa_X T1) <= mx_cost d ms1 (pa_X TO)) /\
    gnc_program qr svd dt L mudiv ds = Ok (T, ms') /\ solve ds = Ok T0 /\ solve ms' = Ok T /\
    ((forall m, In m ds -> 2 * pgo_res d T0 m < 25) -> ms' = ds) /\
    (forall m, In m ds -> (forall m', In m' ds -> pgo_res d T0 m' <= pgo_res d T0 m) -> 25 < 2 * pgo_res d T0 m ->
       exists k, (k <= 20)%nat /\ gnc_rounds solve d 5 (25 / (2 * pgo_res d T0 m - 25)) (14 / 10) ds k ms' /\
         (k = 20%nat \/ (0 < k)%nat /\ Forall decided ms')).
Proof. exact gnc_runs. Qed.
Print Assumptions C61_gnc.

Example C61_gnc_example : dataset_ok 2 2 3 1 off_ds /\ (forall e, In e off_ds -> 0 <= mkappa e /\ 0 <= mtau e) /\ descent_solver klib false /\ div_ok ex_mudiv /\
  exists TO ms' k, gnc_program fqr csvd det2 klib ex_mudiv off_ds = Ok (TO, ms') /\ (0 < k)%nat /\
    gnc_rounds (fun ms => solvePGO fqr csvd det2 klib ms (mkRO true 1 (1 / 1000) true 50 100) (Some TO)) 2 5 (1 / 7) (14 / 10) off_ds k ms'.
Proof. exact gnc_case. Qed.

(** On agreeing measurements no weight changes and the true poses are returned up to a
    change of frame. *)
Theorem C61_gnc_exact : forall qr svd dt St (L : PoseGraph R -> Lib R St) mudiv d n ds (Rt tt : nat -> Mx R),
  dataset_ok d d n 1 ds -> (forall e, In e ds -> 0 < mkappa e /\ 0 < mtau e) -> descent_solver L false -> div_ok mudiv ->
  (forall i, (i < N.to_nat n)%nat -> rotation d (Rt i)) ->
  (forall e, In e ds -> consistent d e (Rt (N.to_nat (mp1 e))) (tt (N.to_nat (mp1 e))) (Rt (N.to_nat (mp2 e))) (tt (N.to_nat (mp2 e)))) ->
  exists T, gnc_program qr svd dt L mudiv ds = Ok (T, ds) /\ traj d (N.to_nat n) T /\
    forall i a, (i < N.to_nat n)%nat -> (a < d)%nat ->
      (forall c, (c < d)%nat -> pblk T i a c = rsum d (fun b => pblk T 0 a b * seen_rot d Rt i b c)) /\
      pblk T i a d = pblk T 0 a d + rsum d (fun b => pblk T 0 a b * seen_pos d Rt tt i b).
Proof. exact gnc_exact. Qed.
Print Assumptions C61_gnc_exact.

Example C61_exact_example : (forall i, (i < N.to_nat 3)%nat -> rotation 2 (ciR i)) /\
  (forall e, In e [ci01; ci12; ci02] -> consistent 2 e (ciR (N.to_nat (mp1 e))) (cit (N.to_nat (mp1 e))) (ciR (N.to_nat (mp2 e))) (cit (N.to_nat (mp2 e)))) /\
  (forall M, rotation 2 M -> svd_at csvd 2 2 M) /\ (forall A, mrows A = 2%nat -> mcols A = 2%nat -> det2 A = det 2 A) /\
  (exists T, gnc_program fqr csvd det2 glib ex_mudiv [ci01; ci12; ci02] = Ok (T, [ci01; ci12; ci02])) /\
  exists T, chordal_program fqr csvd det2 [ci01; ci12; ci02] = Ok (T, 0).
Proof. exact prog_exact_case. Qed.

(** A dataset without odometry edges makes two of the programs abort (finding); the
    chordal one prints a cost. *)
Theorem C61_no_odometry_refuted : forall x ls qr svd dt St (L : PoseGraph R -> Lib R St) mudiv ds,
  (forall e, In e ds -> ids_ok e /\ next_pose e = false) ->
  (forall out, single_program x ls qr svd dt L ds <> Ok out) /\ (forall out, gnc_program qr svd dt L mudiv ds <> Ok out).
Proof. exact single_no_odometry. Qed.
Print Assumptions C61_no_odometry_refuted.

Example C61_no_odometry_example : (forall e, In e [ci02; back21] -> ids_ok e /\ next_pose e = false) /\ single_problem 0 2 3 [ci02; back21] /\
  (forall i, (i < 3)%N -> reached [ci02; back21] i).
Proof. exact star_case. Qed.

(** The order of the lines matters (finding): a permutation of a dataset on which the
    programs run makes two of them abort. *)
Theorem C61_order_refuted : exists x ls qr svd dt St (L : PoseGraph R -> Lib R St) mudiv ds ds' X,
  Permutation ds ds' /\ single_program x ls qr svd dt L ds = Ok (X, 0) /\
  single_program x ls qr svd dt L ds' = Abort /\ gnc_program qr svd dt L mudiv ds' = Abort /\ exists T v, chordal_program qr svd dt ds' = Ok (T, v).
Proof. exact order_matters. Qed.
Print Assumptions C61_order_refuted.

(** The printed cost is not the cost of the dataset (finding): a second measurement of a
    pose pair is not counted, whatever the libraries compute. *)
Theorem C61_repeated_refuted : exists ds, single_problem 0 2 3 ds /\ forall qr svd dt, SpecSolver.svd_sized svd 2 ->
  exists T v, chordal_program qr svd dt ds = Ok (T, v) /\ v < mx_cost 2 ds (pa_X T).
Proof. exact repeated_not_counted. Qed.
Print Assumptions C61_repeated_refuted.
