(** Graduated non-convexity on noise-free data (C58). *)
From Coq Require Import List NArith ZArith Bool Arith Lia Reals Lra Psatz.
From Verif Require Import Base SMap Num RSum Det ModelTypes ModelPoseGraph ModelProblem ModelRobust ModelPoses ModelSolver ModelChordal ModelOptimizer ModelInit
  SpecPoseGraph SpecPGHist SpecCost SpecRobust SpecSolver SpecInit SpecRobustPgo ProofsPoseGraph ProofsRobust ProofsSolver ProofsGnc ProofsInit ProofsInit2 ProofsInit3 ProofsInit4 ProofsRobustPgo.
Import ListNotations.
Local Open Scope R_scope.
Local Open Scope res_scope.


(** Weights do not enter chordal initialisation. *)
Lemma constructB_unit (ms : list (Meas R)) : constructBMatrices (map (set_mweight 1) ms) = constructBMatrices ms.
Proof.
  assert (EN : forall (f : nat -> Meas R -> list (trip R)) k l, (forall i m, f i (set_mweight 1 m) = f i m) -> enum k f (map (set_mweight 1) l) = enum k f l).
  { intros f k l Hf. revert k. induction l as [|m l IH]; intros k; cbn; [reflexivity|]. rewrite Hf, IH. reflexivity. }
  assert (E1 : edges_dim (map (set_mweight 1) ms) = edges_dim ms) by (destruct ms; reflexivity).
  assert (E2 : b_num_poses (map (set_mweight 1) ms) = b_num_poses ms).
  { unfold b_num_poses. generalize 0%N. clear. induction ms as [|m l IH]; intros z; [reflexivity|apply IH]. }
  assert (E3 : forall d, forallb (meas_has_dim d) (map (set_mweight 1) ms) = forallb (meas_has_dim d) ms).
  { intros d. clear. induction ms as [|m l IH]; [reflexivity|cbn [map forallb]; rewrite IH; reflexivity]. }
  unfold constructBMatrices. rewrite E1, E2, E3, map_length, !EN by reflexivity. reflexivity.
Qed.

Lemma unit_in (ms : list (Meas R)) m : In m (map (set_mweight 1) ms) -> exists m0, In m0 ms /\ m = set_mweight 1 m0.
Proof. intros I. apply in_map_iff in I. destruct I as (m0 & E & I). eauto. Qed.
Lemma count_unit ms n : pose_count ms n -> pose_count (map (set_mweight 1) ms) n.
Proof.
  intros [A (m & I & B)]. split.
  - intros m' I'. destruct (unit_in _ _ I') as (m0 & I0 & ->). exact (A m0 I0).
  - exists (set_mweight 1 m). split; [apply in_map; auto|exact B].
Qed.
Lemma reached_unit ms i : reached ms i -> reached (map (set_mweight 1) ms) i.
Proof.
  induction 1 as [|m I _ IH|m I _ IH].
  - constructor.
  - change (mp2 m) with (mp2 (set_mweight 1 m)). apply reached_fwd; [apply in_map; auto|exact IH].
  - change (mp1 m) with (mp1 (set_mweight 1 m)). apply reached_bwd; [apply in_map; auto|exact IH].
Qed.
Lemma single_unit k d n ms : single_problem k d n ms -> single_problem k d n (map (set_mweight 1) ms).
Proof.
  intros (Hd & Hc & Hn & Hk & Hm). split; auto. split; [apply count_unit; auto|]. split; auto. split; auto.
  intros m I. destruct (unit_in _ _ I) as (m0 & I0 & ->). exact (Hm m0 I0).
Qed.

(** If the first solution has no cost, the weights stay 1. *)
Lemma robust_zero mudiv solve rp k d n ms T0 T : single_problem k d n ms ->
  (forall m, In m ms -> 0 < mweight m /\ 0 < mkappa m /\ 0 < mtau m) ->
  solve ms = Ok T0 -> traj d n T0 -> mx_cost d ms (pa_X T0) = 0 -> solve (map (set_mweight 1) ms) = Ok T ->
  costType rp = GNC_TLS -> 0 < GNCBarc rp -> div_ok mudiv ->
  solveRobustPGO mudiv solve ms rp = Ok (T, map (set_mweight 1) ms).
Proof.
  intros (Hd & Hc & Hn & Hk & Hm) Hw E0 TT0 Z0 ET Ht Hb Hdiv.
  assert (Hm' : forall m, In m ms -> meas_sized d m /\ 0 <= mkappa m /\ 0 <= mtau m).
  { intros m I. destruct (Hm m I) as (_ & _ & _ & A). destruct (Hw m I) as (_ & B & C). split; auto. split; lra. }
  assert (ZR : forall m, In m ms -> pgo_res d T0 m = 0).
  { destruct TT0 as (_ & D & _). intros m I. destruct (Hw m I) as (W & K & U).
    assert (NN : forall m, In m ms -> 0 <= edge_cost d d m (pose_blk d (pa_X T0) (N.to_nat (mp1 m))) (pose_blk d (pa_X T0) (N.to_nat (mp2 m)))).
    { intros m' I'. apply edge_nonneg. destruct (Hw m' I') as (W' & K' & U'). repeat split; lra. }
    pose proof (rsumL_nonneg_zero _ _ NN Z0 m I) as EZ. cbn beta in EZ.
    unfold pgo_res, pblk. rewrite D, !Nat.add_1_r. unfold edge_cost, pose_blk in EZ |- *. cbn [mweight mkappa mtau mR mt set_mweight] in EZ |- *.
    apply Rmult_integral in EZ. destruct EZ as [EZ|EZ]; [lra|]. rewrite Rmult_1_l. exact EZ. }
  assert (NE : ms <> []) by (destruct Hc as [_ (m & I & _)]; intros ->; destruct I).
  unfold solveRobustPGO.
  assert (EG : get_dimension_and_num_poses ms = Ok (d, N.of_nat n)).
  { apply dim_and_count; auto. intros m I. apply (Hm' m I). }
  rewrite EG. cbn [bind]. rewrite E0. cbn [bind]. change (@n1 R NumR) with 1.
  assert (SB1 : same_but_weights ms (map (set_mweight 1) ms)) by (apply sbw_map; [eauto|apply sbw_refl]).
  rewrite (mapM_all _ (pgo_res d T0)).
  2:{ eapply Forall_impl; [|apply (fine_sbw d n ms Hc Hm' _ SB1)]. intros m F. apply (pgo_error_is d n Hn); auto. }
  cbn [bind]. rewrite Ht. cbn [cost_type_eqb check].
  set (mx := maxCoeff _).
  assert (EM : mx = 0).
  { assert (Im : In mx (map (pgo_res d T0) (map (set_mweight 1) ms))) by (apply maxCoeff_in; destruct ms; [congruence|discriminate]).
    apply in_map_iff in Im. destruct Im as (m & E & I). rewrite <- E. destruct (unit_in _ _ I) as (m0 & I0 & ->). exact (ZR m0 I0). }
  cbv zeta. numr. rewrite EM. set (mu0 := mudiv _ _).
  assert (L0 : ~ 0 < mu0).
  { unfold mu0. assert (0 < GNCBarc rp * GNCBarc rp) by nra. rewrite Hdiv by lra. replace (_ / _) with (-1) by (field; lra). lra. }
  destruct (Rlt_dec 0 mu0) as [X|_]; [contradiction|]. cbn [bind]. rewrite ET. reflexivity.
Qed.

Theorem robust_exact : forall qr svd determinant St (L : PoseGraph R -> Lib R St) mudiv p rp k d n ms (Rt tt : nat -> Mx R) B1 B2 B3,
  single_problem k d n ms -> (N.of_nat n * N.of_nat (d * d) < two32)%N ->
  (forall m, In m ms -> 0 < mweight m /\ 0 < mkappa m /\ 0 < mtau m) ->
  (forall i, (i < n)%nat -> rotation d (Rt i)) ->
  (forall m, In m ms -> consistent d m (Rt (N.to_nat (mp1 m))) (tt (N.to_nat (mp1 m))) (Rt (N.to_nat (mp2 m))) (tt (N.to_nat (mp2 m)))) ->
  (forall i, (i < N.of_nat n)%N -> reached ms i) ->
  constructBMatrices ms = Ok (B1, B2, B3) ->
  solves_if_possible qr (last_cols ((n - 1) * (d * d)) B3) -> solves_if_possible qr (last_cols (d * (n - 1)) B1) ->
  svd_sized svd d -> (forall M, rotation d M -> svd_at svd d d M) -> (forall A, mrows A = d -> mcols A = d -> determinant A = det d A) ->
  ro_rtr p = true -> descent_solver L (ro_iters p =? 1)%Z ->
  costType rp = GNC_TLS -> 0 < GNCBarc rp -> div_ok mudiv ->
  exists T, solveRobustPGO mudiv (fun ms => solvePGO qr svd determinant L ms p None) ms rp = Ok (T, map (set_mweight 1) ms) /\ traj d n T /\
    forall i a, (i < n)%nat -> (a < d)%nat ->
      (forall c, (c < d)%nat -> pblk T i a c = rsum d (fun b => pblk T 0 a b * seen_rot d Rt i b c)) /\
      pblk T i a d = pblk T 0 a d + rsum d (fun b => pblk T 0 a b * seen_pos d Rt tt i b).
Proof.
  intros qr svd determinant St L mudiv p rp k d n ms Rt tt B1 B2 B3 HP HB Hw HR Hcon Hreach EB S3 S1 Hsv Hsa Hdet Hrtr Hdesc Ht Hb Hdiv.
  destruct (solve_exact qr svd determinant St L p k d n ms Rt tt B1 B2 B3 HP HB Hw HR Hcon Hreach EB S3 S1 Hsv Hsa Hdet Hrtr Hdesc) as (T0 & E0 & TT0 & Z0 & _).
  destruct (solve_exact qr svd determinant St L p k d n (map (set_mweight 1) ms) Rt tt B1 B2 B3) as (T & ET & TT & _ & XT); auto.
  { apply single_unit; auto. }
  { intros m I. destruct (unit_in _ _ I) as (m0 & I0 & ->). cbn. destruct (Hw m0 I0) as (_ & A & B). split; [lra|auto]. }
  { intros m I. destruct (unit_in _ _ I) as (m0 & I0 & ->). exact (Hcon m0 I0). }
  { intros i Hi. apply reached_unit; auto. }
  { rewrite constructB_unit. exact EB. }
  exists T. split; [|split; [exact TT|exact XT]]. apply (robust_zero mudiv _ rp k d n ms T0 T); auto.
Qed.
