(** The centralised solver on noise-free data (C54). *)
From Coq Require Import List NArith ZArith Bool Arith Lia Reals Lra Psatz Permutation.
From Verif Require Import Base SMap Num RSum Det MatR ModelTypes ModelPoseGraph ModelPoses ModelProblem ModelSolver ModelChordal ModelOptimizer ModelInit
  SpecPoseGraph SpecPGHist SpecCost SpecSolver SpecInit SpecOptimizer
  ProofsPGHist ProofsExample2 ProofsInit ProofsInit2 ProofsInit3.
Import ListNotations.
Local Open Scope R_scope.

Lemma first_of (ms : list (Meas R)) m : In m ms -> exists m', In m' (firsts ms) /\ mp1 m' = mp1 m /\ mp2 m' = mp2 m.
Proof.
  intros Hm. assert (Q : seen (firsts ms) m = true).
  { rewrite firsts_seen. unfold seen. apply existsb_exists. exists m. split; auto. apply same_key; reflexivity. }
  unfold seen in Q. apply existsb_exists in Q. destruct Q as (m' & I & J). apply same_key in J. injection J as _ _ J3 J4. eauto.
Qed.

(** Edge costs. *)
Lemma edge_nonneg r d m Xi Xj : nonneg_meas m -> 0 <= edge_cost r d m Xi Xj.
Proof.
  intros (W & K & T). unfold edge_cost. apply Rmult_le_pos; auto. apply Rplus_le_le_0_compat; apply Rmult_le_pos; auto; apply rsum_nonneg; intros.
  - apply rsum_nonneg. intros. apply Rle_0_sqr.
  - apply Rle_0_sqr.
Qed.
Lemma edge_zero r d m Xi Xj : 0 < mweight m -> 0 < mkappa m -> 0 < mtau m -> edge_cost r d m Xi Xj <= 0 ->
  (forall a c, (a < r)%nat -> (c < d)%nat -> Xj a c = rsum d (fun b => Xi a b * mR m b c)) /\
  (forall a, (a < r)%nat -> Xj a d = Xi a d + rsum d (fun b => Xi a b * mt m b 0%nat)).
Proof.
  intros W K T H. unfold edge_cost in H.
  set (A := rsum r (fun a => rsum d (fun c => sq (rsum d (fun b => Xi a b * mR m b c) - Xj a c)))) in *.
  set (B := rsum r (fun a => sq (Xj a d - Xi a d - rsum d (fun b => Xi a b * mt m b 0%nat)))) in *.
  assert (PA : 0 <= A) by (apply rsum_nonneg; intros; apply rsum_nonneg; intros; apply Rle_0_sqr).
  assert (PB : 0 <= B) by (apply rsum_nonneg; intros; apply Rle_0_sqr).
  assert (Z : A = 0 /\ B = 0).
  { assert (mkappa m * A + mtau m * B <= 0) by (apply (Rmult_le_reg_l (mweight m)); [auto|]; lra).
    assert (0 <= mkappa m * A) by (apply Rmult_le_pos; lra). assert (0 <= mtau m * B) by (apply Rmult_le_pos; lra).
    assert (mkappa m * A = 0) by lra. assert (mtau m * B = 0) by lra. split; [apply (Rmult_eq_reg_l (mkappa m))|apply (Rmult_eq_reg_l (mtau m))]; lra. }
  destruct Z as [ZA ZB]. split.
  - intros a c Ha Hc. assert (Z : rsum d (fun c => sq (rsum d (fun b => Xi a b * mR m b c) - Xj a c)) = 0).
    { apply (rsum_nonneg_zero r (fun a => rsum d (fun c => sq (rsum d (fun b => Xi a b * mR m b c) - Xj a c)))); auto.
      intros. apply rsum_nonneg. intros. apply Rle_0_sqr. }
    pose proof (sum_sq_zero d _ Z c Hc). cbn beta in *. lra.
  - intros a Ha. pose proof (sum_sq_zero r _ ZB a Ha). cbn beta in *. lra.
Qed.
Lemma edge_cost_zero r d m Xi Xj : (forall a c, (a < r)%nat -> (c < d)%nat -> Xj a c = rsum d (fun b => Xi a b * mR m b c)) ->
  (forall a, (a < r)%nat -> Xj a d = Xi a d + rsum d (fun b => Xi a b * mt m b 0%nat)) -> edge_cost r d m Xi Xj = 0.
Proof.
  intros A B. unfold edge_cost. rewrite (rsum_zero' r (fun a => rsum d _)), (rsum_zero' r); [ring|..].
  - intros a Ha. rewrite B by auto. unfold sq. ring.
  - intros a Ha. apply rsum_zero'. intros c Hc. rewrite A by auto. unfold sq. ring.
Qed.

Section E.
Variables (d n : nat) (ms : list (Meas R)) (Rt tt : nat -> Mx R).
Hypothesis Hd : (d = 2 \/ d = 3)%nat.
Hypothesis Hp : pose_count ms (N.of_nat n).
Hypothesis Hrot : forall i, (i < n)%nat -> rotation d (Rt i).
Hypothesis Hc : forall m, In m ms -> consistent d m (Rt (N.to_nat (mp1 m))) (tt (N.to_nat (mp1 m))) (Rt (N.to_nat (mp2 m))) (tt (N.to_nat (mp2 m))).
Hypothesis Hconn : forall i, (i < N.of_nat n)%N -> reached ms i.

(** A row determined by its value at pose 0 along the (kept) measurements. *)
Lemma row_unique (F G : nat -> nat -> R) : (forall c, (c < d)%nat -> F 0%nat c = G 0%nat c) ->
  (forall m c, In m (firsts ms) -> (c < d)%nat -> F (N.to_nat (mp2 m)) c = rsum d (fun b => F (N.to_nat (mp1 m)) b * mR m b c)) ->
  (forall m c, In m (firsts ms) -> (c < d)%nat -> G (N.to_nat (mp2 m)) c = rsum d (fun b => G (N.to_nat (mp1 m)) b * mR m b c)) ->
  forall i c, (i < n)%nat -> (c < d)%nat -> F i c = G i c.
Proof.
  intros H0 HF HG. assert (H : forall i, reached ms i -> forall c, (c < d)%nat -> F (N.to_nat i) c = G (N.to_nat i) c).
  { intros i. induction 1 as [|m0 Hm0 _ IH|m0 Hm0 _ IH]; intros c Hcc.
    - apply H0; auto.
    - destruct (first_of ms m0 Hm0) as (m & Hm & E1 & E2). rewrite <- E1 in IH. rewrite <- E2. rewrite HF, HG by auto. apply rsum_ext. intros b Hb. rewrite IH by auto. reflexivity.
    - destruct (first_of ms m0 Hm0) as (m & Hm & E1 & E2). rewrite <- E2 in IH. rewrite <- E1.
      assert (U : forall K : nat -> R, K c = rsum d (fun b => rsum d (fun e => K e * mR m e b) * mR m c b)).
      { intros K. rewrite (rsum_ext d _ (fun b => rsum d (fun e => K e * (mR m e b * mR m c b)))).
        2:{ intros b Hb. rewrite <- rsum_scal_r. apply rsum_ext. intros. ring. }
        rewrite rsum_swap. rewrite (rsum_ext d _ (fun e => if Nat.eqb e c then K e else 0)).
        2:{ intros e He. rewrite rsum_scal, (meas_orth d n ms Rt tt Hp Hrot Hc) by (auto using firsts_in). destruct (Nat.eqb e c); ring. }
        symmetry. apply rsum_delta; auto. }
      rewrite (U (F (N.to_nat (mp1 m)))), (U (G (N.to_nat (mp1 m)))). apply rsum_ext. intros b Hb. rewrite <- HF, <- HG by auto. rewrite IH by auto. reflexivity. }
  intros i c Hi Hcc. assert (Hi' : (N.of_nat i < N.of_nat n)%N) by (clear - Hi; lia).
  pose proof (H (N.of_nat i) (Hconn (N.of_nat i) Hi') c Hcc) as E. rewrite Nat2N.id in E. exact E.
Qed.
Lemma shift_unique (F G : nat -> R) (s : Meas R -> R) : F 0%nat = G 0%nat ->
  (forall m, In m (firsts ms) -> F (N.to_nat (mp2 m)) = F (N.to_nat (mp1 m)) + s m) ->
  (forall m, In m (firsts ms) -> G (N.to_nat (mp2 m)) = G (N.to_nat (mp1 m)) + s m) ->
  forall i, (i < n)%nat -> F i = G i.
Proof.
  intros H0 HF HG. assert (H : forall i, reached ms i -> F (N.to_nat i) = G (N.to_nat i)).
  { intros i. induction 1 as [|m0 Hm0 _ IH|m0 Hm0 _ IH].
    - exact H0.
    - destruct (first_of ms m0 Hm0) as (m & Hm & E1 & E2). rewrite <- E1 in IH. rewrite <- E2, HF, HG, IH by auto. reflexivity.
    - destruct (first_of ms m0 Hm0) as (m & Hm & E1 & E2). rewrite <- E2 in IH. rewrite <- E1. rewrite HF, HG in IH by auto. clear - IH. lra. }
  intros i Hi. assert (Hi' : (N.of_nat i < N.of_nat n)%N) by (clear - Hi; lia).
  pose proof (H (N.of_nat i) (Hconn (N.of_nat i) Hi')) as E. rewrite Nat2N.id in E. exact E.
Qed.

Lemma zero_cost_poses (X : nat -> nat -> nat -> R) :
  (forall m, In m (firsts ms) ->
     (forall a c, (a < d)%nat -> (c < d)%nat -> X (N.to_nat (mp2 m)) a c = rsum d (fun b => X (N.to_nat (mp1 m)) a b * mR m b c)) /\
     (forall a, (a < d)%nat -> X (N.to_nat (mp2 m)) a d = X (N.to_nat (mp1 m)) a d + rsum d (fun b => X (N.to_nat (mp1 m)) a b * mt m b 0%nat))) ->
  forall i a, (i < n)%nat -> (a < d)%nat ->
    (forall c, (c < d)%nat -> X i a c = rsum d (fun b => X 0%nat a b * seen_rot d Rt i b c)) /\
    X i a d = X 0%nat a d + rsum d (fun b => X 0%nat a b * seen_pos d Rt tt i b).
Proof.
  intros HX i a Hi Ha. assert (Hn : (0 < n)%nat) by (clear - Hi; lia).
  assert (HR : forall i c, (i < n)%nat -> (c < d)%nat -> X i a c = rsum d (fun b => X 0%nat a b * seen_rot d Rt i b c)).
  { apply (row_unique (fun i c => X i a c) (fun i c => rsum d (fun b => X 0%nat a b * seen_rot d Rt i b c))).
    - intros c Hcc. rewrite (rsum_ext d _ (fun b => if Nat.eqb b c then X 0%nat a b else 0)).
      2:{ intros b Hb. rewrite (seen_first d n Rt Hrot) by auto. destruct (Nat.eqb b c); ring. }
      symmetry. apply rsum_delta; auto.
    - intros m c Hm Hcc. apply (HX m Hm); auto.
    - intros m c Hm Hcc. rewrite (rsum_ext d _ (fun e => rsum d (fun b => X 0%nat a e * seen_rot d Rt (N.to_nat (mp1 m)) e b * mR m b c))).
      2:{ intros e He. rewrite (seen_rot_edge d ms Rt tt Hc m e c (firsts_in _ _ Hm) He Hcc), <- rsum_scal. apply rsum_ext. intros. ring. }
      rewrite rsum_swap. apply rsum_ext. intros b Hb. rewrite rsum_scal_r. reflexivity. }
  split; [intros c Hcc; apply HR; auto|].
  apply (shift_unique (fun i => X i a d) (fun i => X 0%nat a d + rsum d (fun b => X 0%nat a b * seen_pos d Rt tt i b))
    (fun m => rsum d (fun b => X (N.to_nat (mp1 m)) a b * mt m b 0%nat))); auto.
  - rewrite (rsum_zero' d); [ring|]. intros b Hb. unfold seen_pos. rewrite rsum_zero'; [ring|]. intros. ring.
  - intros m Hm. apply (HX m Hm); auto.
  - intros m Hm. destruct (in_range_ms n ms Hp m (firsts_in _ _ Hm)) as [I1 _].
    rewrite Rplus_assoc. f_equal.
    rewrite (rsum_ext d (fun b => X (N.to_nat (mp1 m)) a b * _) (fun b => rsum d (fun e => X 0%nat a e * (seen_rot d Rt (N.to_nat (mp1 m)) e b * mt m b 0%nat)))).
    2:{ intros b Hb. rewrite HR by auto. rewrite <- rsum_scal_r. apply rsum_ext. intros. ring. }
    rewrite rsum_swap, <- rsum_add. apply rsum_ext. intros e He. rewrite (seen_pos_edge d ms Rt tt Hc m e (firsts_in _ _ Hm) He). rewrite rsum_scal. ring.
Qed.
End E.

(** The true configuration has no cost. *)
Lemma true_cost d n ms (Rt tt : nat -> Mx R) T : pose_count ms (N.of_nat n) ->
  (forall m, In m ms -> consistent d m (Rt (N.to_nat (mp1 m))) (tt (N.to_nat (mp1 m))) (Rt (N.to_nat (mp2 m))) (tt (N.to_nat (mp2 m)))) ->
  pa_d T = d ->
  (forall i a, (i < n)%nat -> (a < d)%nat ->
      (forall c, (c < d)%nat -> pblk T i a c = rsum d (fun b => pblk T 0 a b * seen_rot d Rt i b c)) /\
      pblk T i a d = pblk T 0 a d + rsum d (fun b => pblk T 0 a b * seen_pos d Rt tt i b)) ->
  mx_cost d ms (pa_X T) = 0.
Proof.
  intros PC Hc D V.
  assert (BT : forall i a c, pblk T i a c = pose_blk d (pa_X T) i a c) by (intros; unfold pblk, pose_blk; rewrite D, Nat.add_1_r; reflexivity).
  apply rsumL_zero. intros m Hm. destruct (in_range_ms n ms PC m Hm) as [I1 I2]. apply edge_cost_zero.
  - intros a c Ha Hcc. rewrite <- BT. rewrite (proj1 (V _ a I2 Ha) c Hcc).
    rewrite (rsum_ext d (fun b => pose_blk d (pa_X T) _ a b * _) (fun b => rsum d (fun e => pblk T 0 a e * (seen_rot d Rt (N.to_nat (mp1 m)) e b * mR m b c)))).
    2:{ intros b Hb. rewrite <- BT, (proj1 (V _ a I1 Ha) b Hb), <- rsum_scal_r. apply rsum_ext. intros. ring. }
    rewrite rsum_swap. apply rsum_ext. intros e He. rewrite rsum_scal. rewrite (seen_rot_edge d ms Rt tt Hc m e c Hm He Hcc). reflexivity.
  - intros a Ha. rewrite <- !BT. rewrite (proj2 (V _ a I2 Ha)), (proj2 (V _ a I1 Ha)), Rplus_assoc. f_equal.
    rewrite (rsum_ext d (fun b => pose_blk d (pa_X T) _ a b * _) (fun b => rsum d (fun e => pblk T 0 a e * (seen_rot d Rt (N.to_nat (mp1 m)) e b * mt m b 0%nat)))).
    2:{ intros b Hb. rewrite <- BT, (proj1 (V _ a I1 Ha) b Hb), <- rsum_scal_r. apply rsum_ext. intros. ring. }
    rewrite rsum_swap, <- rsum_add. apply rsum_ext. intros e He. rewrite (seen_pos_edge d ms Rt tt Hc m e Hm He). rewrite rsum_scal. ring.
Qed.

(** A trajectory without cost on noise-free data is the true configuration. *)
Lemma zero_exact d n ms (Rt tt : nat -> Mx R) T : pose_count ms (N.of_nat n) ->
  (forall m, In m ms -> 0 < mweight m /\ 0 < mkappa m /\ 0 < mtau m) ->
  (forall i, (i < n)%nat -> rotation d (Rt i)) ->
  (forall m, In m ms -> consistent d m (Rt (N.to_nat (mp1 m))) (tt (N.to_nat (mp1 m))) (Rt (N.to_nat (mp2 m))) (tt (N.to_nat (mp2 m)))) ->
  (forall i, (i < N.of_nat n)%N -> reached ms i) ->
  pa_d T = d -> mx_cost d (firsts ms) (pa_X T) <= 0 -> mx_cost d ms (pa_X T) = 0 /\
    forall i a, (i < n)%nat -> (a < d)%nat ->
      (forall c, (c < d)%nat -> pblk T i a c = rsum d (fun b => pblk T 0 a b * seen_rot d Rt i b c)) /\
      pblk T i a d = pblk T 0 a d + rsum d (fun b => pblk T 0 a b * seen_pos d Rt tt i b).
Proof.
  intros PC Hw Hrot Hc Hconn D CT.
  assert (NN : forall m, In m (firsts ms) -> 0 <= edge_cost d d m (pose_blk d (pa_X T) (N.to_nat (mp1 m))) (pose_blk d (pa_X T) (N.to_nat (mp2 m)))).
  { intros m Hm. apply edge_nonneg. destruct (Hw m (firsts_in _ _ Hm)) as (W & K & U). repeat split; lra. }
  assert (Z2 : mx_cost d (firsts ms) (pa_X T) = 0).
  { assert (0 <= mx_cost d (firsts ms) (pa_X T)) by (apply rsumL_nonneg; exact NN). lra. }
  pose proof (rsumL_nonneg_zero _ _ NN Z2) as EZ.
  assert (V : forall i a, (i < n)%nat -> (a < d)%nat ->
      (forall c, (c < d)%nat -> pblk T i a c = rsum d (fun b => pblk T 0 a b * seen_rot d Rt i b c)) /\
      pblk T i a d = pblk T 0 a d + rsum d (fun b => pblk T 0 a b * seen_pos d Rt tt i b)).
  { apply (zero_cost_poses d n ms Rt tt PC Hrot Hc Hconn (pblk T)). intros m Hm. destruct (Hw m (firsts_in _ _ Hm)) as (W & K & U).
    assert (LE : edge_cost d d m (pblk T (N.to_nat (mp1 m))) (pblk T (N.to_nat (mp2 m))) <= 0).
    { specialize (EZ m Hm). cbn beta in EZ. unfold pblk. rewrite D, !Nat.add_1_r. unfold pose_blk in EZ. lra. }
    apply (edge_zero d d m _ _ W K U LE). }
  split; [|exact V]. exact (true_cost d n ms Rt tt T PC Hc D V).
Qed.

Theorem solve_exact : forall qr svd determinant St (L : PoseGraph R -> Lib R St) p k d n ms (Rt tt : nat -> Mx R) B1 B2 B3,
  single_problem k d n ms -> (N.of_nat n * N.of_nat (d * d) < two32)%N ->
  (forall m, In m ms -> 0 < mweight m /\ 0 < mkappa m /\ 0 < mtau m) ->
  (forall i, (i < n)%nat -> rotation d (Rt i)) ->
  (forall m, In m ms -> consistent d m (Rt (N.to_nat (mp1 m))) (tt (N.to_nat (mp1 m))) (Rt (N.to_nat (mp2 m))) (tt (N.to_nat (mp2 m)))) ->
  (forall i, (i < N.of_nat n)%N -> reached ms i) ->
  constructBMatrices ms = Ok (B1, B2, B3) ->
  solves_if_possible qr (last_cols ((n - 1) * (d * d)) B3) -> solves_if_possible qr (last_cols (d * (n - 1)) B1) ->
  svd_sized svd d -> (forall M, rotation d M -> svd_at svd d d M) -> (forall A, mrows A = d -> mcols A = d -> determinant A = det d A) ->
  ro_rtr p = true -> descent_solver L (ro_iters p =? 1)%Z ->
  exists T, solvePGO qr svd determinant L ms p None = Ok T /\ traj d n T /\ mx_cost d ms (pa_X T) = 0 /\
    forall i a, (i < n)%nat -> (a < d)%nat ->
      (forall c, (c < d)%nat -> pblk T i a c = rsum d (fun b => pblk T 0 a b * seen_rot d Rt i b c)) /\
      pblk T i a d = pblk T 0 a d + rsum d (fun b => pblk T 0 a b * seen_pos d Rt tt i b).
Proof.
  intros qr svd dt St L p k d n ms Rt tt B1 B2 B3 HP Hn Hw Hrot Hc Hconn EB L3 L1 Hss Hsv Hdt HR HH.
  pose proof HP as (Hd & PC & _ & _ & PD).
  destruct (chordal_exact qr svd dt d n ms Rt tt B1 B2 B3) as (Ti & ETi & TTi & VTi); auto.
  { intros m Hm. destruct (PD m Hm) as (_ & _ & _ & S). destruct (Hw m Hm) as (_ & K & T). auto. }
  destruct (solve_not_worse qr svd dt St L p k d n ms None Ti HP HR (or_intror (conj eq_refl ETi)) TTi HH) as (T & ET & TT & CT).
  exists T. split; [exact ET|]. split; [exact TT|].
  destruct TTi as (_ & Di & _). pose proof TT as (_ & D & _).
  assert (BI : forall i a c, pblk Ti i a c = pose_blk d (pa_X Ti) i a c) by (intros; unfold pblk, pose_blk; rewrite Di, Nat.add_1_r; reflexivity).
  assert (Z : mx_cost d (firsts ms) (pa_X Ti) = 0).
  { apply rsumL_zero. intros m Hm. apply firsts_in in Hm. destruct (in_range_ms n ms PC m Hm) as [I1 I2]. apply edge_cost_zero.
    - intros a c Ha Hcc. rewrite <- BI. rewrite (proj1 (VTi _ a I2 Ha) c Hcc), (seen_rot_edge d ms Rt tt Hc m a c Hm Ha Hcc). apply rsum_ext.
      intros b Hb. rewrite <- BI, (proj1 (VTi _ a I1 Ha) b Hb). reflexivity.
    - intros a Ha. rewrite <- !BI. rewrite (proj2 (VTi _ a I2 Ha)), (proj2 (VTi _ a I1 Ha)), (seen_pos_edge d ms Rt tt Hc m a Hm Ha). f_equal.
      apply rsum_ext. intros b Hb. rewrite <- BI, (proj1 (VTi _ a I1 Ha) b Hb). reflexivity. }
  apply (zero_exact d n ms Rt tt T); auto. lra.
Qed.
