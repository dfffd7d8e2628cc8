(** Main results about chordal initialisation (C53). *)
From Coq Require Import List NArith ZArith Bool Arith Lia Reals Lra Psatz.
From Verif Require Import Base Num RSum Det MatR ModelTypes ModelPoseGraph ModelPoses ModelProblem ModelSolver ModelChordal ModelInit
  SpecCost SpecSolver SpecInit ProofsPoseGraph ProofsSolver ProofsPoses ProofsOdom ProofsChordal ProofsInit.
Import ListNotations.
Local Open Scope R_scope.

Lemma proj_sized svd determinant d M : svd_sized svd d -> sized d d M -> sized d d (projectToRotationGroup svd determinant M).
Proof.
  intros H HM. destruct (H M HM) as [[A B] [C D]]. unfold projectToRotationGroup. destruct (svd M) as [U V]. cbn in A, B, C, D.
  destruct (nltb _ _); split; cbn; auto.
Qed.

Lemma ms_nonempty ms n : pose_count ms n -> ms <> [].
Proof. intros [_ (m & Hm & _)] ->. destruct Hm. Qed.

Lemma relaxed_first qr d n B3 a c : (a < d)%nat -> (c < d)%nat -> blocks d (relaxed qr d n B3) 0 a c = if Nat.eqb a c then 1 else 0.
Proof.
  intros Ha Hc. unfold blocks, relaxed, glue. cbn [Nat.mul Nat.add]. rewrite (proj2 (Nat.ltb_lt _ _)) by nia. unfold vec_of.
  destruct (divmod d c a Ha) as [-> ->]. reflexivity.
Qed.

Theorem chordal_relaxation : forall qr svd determinant d n ms B1 B2 B3,
  (d = 2 \/ d = 3)%nat -> pose_count ms (N.of_nat n) -> (N.of_nat n * N.of_nat (d * d) < two32)%N ->
  (forall m, In m ms -> meas_sized d m /\ 0 <= mkappa m /\ 0 <= mtau m) ->
  constructBMatrices ms = Ok (B1, B2, B3) ->
  (forall c, least_squares (last_cols ((n - 1) * (d * d)) B3) c (qr (last_cols ((n - 1) * (d * d)) B3) c)) ->
  (forall c, least_squares (last_cols (d * (n - 1)) B1) c (qr (last_cols (d * (n - 1)) B1) c)) ->
  svd_sized svd d -> (forall A, mrows A = d -> mcols A = d -> determinant A = det d A) ->
  exists T Q, chordalInitialization qr svd determinant ms = Ok T /\ traj d n T /\
    (forall a c, (a < d)%nat -> (c <= d)%nat -> pblk T 0 a c = if Nat.eqb a c then 1 else 0) /\
    (forall a c, (a < d)%nat -> (c < d)%nat -> Q 0%nat a c = if Nat.eqb a c then 1 else 0) /\
    (forall Q', (forall a c, (a < d)%nat -> (c < d)%nat -> Q' 0%nat a c = if Nat.eqb a c then 1 else 0) ->
       rot_cost d ms Q <= rot_cost d ms Q') /\
    (forall i, (1 <= i < n)%nat -> exists M, sized d d M /\ (forall a c, (a < d)%nat -> (c < d)%nat -> M a c = Q i a c) /\
       (svd_at svd d d M -> rot_block d (pblk T i) /\
          forall P, rotation d P -> dist2 d d (Q i) (pblk T i) <= dist2 d d (Q i) P)) /\
    (forall t, trans_cost d ms (pblk T) (fun i a => pblk T i a d) <= trans_cost d ms (pblk T) t).
Proof.
  intros qr svd dt d n ms B1 B2 B3 Hd Hp Hn Hm EB L3 L1 Hsv Hdt.
  assert (Hne := ms_nonempty _ _ Hp). assert (Hs : forall m, In m ms -> meas_sized d m) by (intros; apply Hm; auto).
  destruct (chordal_run qr svd dt d n ms B1 B2 B3 Hd Hne Hs Hn Hp EB) as (Rc & T & E & HT & ZR & V1 & V2 & V0 & VR).
  { intros i M Hi HM _. apply proj_sized; auto. }
  exists T, (blocks d (relaxed qr d n B3)). split; [exact E|]. split; [exact HT|].
  pose proof (count_pos n ms Hp) as Np.
  split; [|split; [|split; [|split]]].
  - intros a c Ha Hc. destruct (Nat.eq_dec c d) as [->|Nc].
    + rewrite V2 by auto. cbn. rewrite (proj2 (Nat.eqb_neq a d)) by lia. reflexivity.
    + rewrite V1 by (auto; lia). cbn [Nat.mul Nat.add]. apply V0; lia.
  - intros a c Ha Hc. apply relaxed_first; auto.
  - intros Q' HQ'. apply (relaxed_min qr d n ms B1 B2 B3); auto. intros m Im. apply Hm; auto.
  - intros i Hi. destruct (VR i Hi) as (M & M1 & M2 & M3). exists M. split; [exact M1|]. split; [exact M2|]. intros HS.
    assert (EP : forall a c, (a < d)%nat -> (c < d)%nat -> projectToRotationGroup svd dt M a c = pblk T i a c).
    { intros a c Ha Hc. rewrite V1 by (auto; lia). symmetry. apply M3; auto. }
    destruct (rotation_projection svd dt d M M HS Hdt) as [(P1 & P2 & P3 & P4) _]. split.
    + split; [exact (orth_ext _ _ _ _ EP P3)|]. rewrite <- P4. apply det_ext. intros a c Ha Hc. symmetry. auto.
    + intros P HP. destruct (rotation_projection svd dt d M P HS Hdt) as [_ C]. specialize (C HP).
      rewrite (dist2_ext d d (blocks d (relaxed qr d n B3) i) M (pblk T i) (projectToRotationGroup svd dt M)).
      * rewrite (dist2_ext d d (blocks d (relaxed qr d n B3) i) M P P); auto. intros a c Ha Hc. symmetry. auto.
      * intros a c Ha Hc. symmetry. auto.
      * intros a c Ha Hc. symmetry. auto.
  - intros t.
    rewrite !(trans_cost_ext d n ms Hp (pblk T) (fun i a c => Rc a (i * d + c)%nat) _ (positions qr d n B1 B2 Rc)) by auto.
    rewrite (trans_cost_ext d n ms Hp (pblk T) (fun i a c => Rc a (i * d + c)%nat) t t) by auto.
    apply (positions_min qr d n ms B1 B2 B3); auto. intros m Im. apply Hm; auto.
Qed.

(** ** Exact data *)
Section Exact.
Variables (d n : nat) (ms : list (Meas R)) (Rt tt : nat -> Mx R).
Hypothesis Hd : (d = 2 \/ d = 3)%nat.
Hypothesis Hp : pose_count ms (N.of_nat n).
Hypothesis Hrot : forall i, (i < n)%nat -> rotation d (Rt i).
Hypothesis Hc : forall m, In m ms -> consistent d m (Rt (N.to_nat (mp1 m))) (tt (N.to_nat (mp1 m))) (Rt (N.to_nat (mp2 m))) (tt (N.to_nat (mp2 m))).
Hypothesis Hconn : forall i, (i < N.of_nat n)%N -> reached ms i.

Lemma orth_at i : (i < n)%nat -> orthonormal d d (Rt i).
Proof. intros Hi. apply (Hrot i Hi). Qed.
Lemma orth_row i a c : (i < n)%nat -> (a < d)%nat -> (c < d)%nat -> rsum d (fun b => Rt i a b * Rt i c b) = if Nat.eqb a c then 1 else 0.
Proof. intros Hi Ha Hcc. apply (orth_square d (Rt i) (orth_at i Hi) a c Ha Hcc). Qed.

Lemma meas_rot m e c : In m ms -> (e < d)%nat -> (c < d)%nat ->
  mR m e c = rsum d (fun a => Rt (N.to_nat (mp1 m)) a e * Rt (N.to_nat (mp2 m)) a c).
Proof.
  intros Hm He Hcc. destruct (in_range_ms n ms Hp m Hm) as [I1 I2]. destruct (Hc m Hm) as [C _].
  symmetry. rewrite (rsum_ext d _ (fun a => rsum d (fun b => Rt (N.to_nat (mp1 m)) a e * Rt (N.to_nat (mp1 m)) a b * mR m b c))).
  2:{ intros a Ha. rewrite C by auto. rewrite <- rsum_scal. apply rsum_ext. intros. ring. }
  rewrite rsum_swap. rewrite (rsum_ext d _ (fun b => if Nat.eqb b e then mR m b c else 0)).
  2:{ intros b Hb. rewrite rsum_scal_r. rewrite (orth_at _ I1 e b He Hb). rewrite Nat.eqb_sym. destruct (Nat.eqb b e); ring. }
  apply (rsum_delta d e (fun b => mR m b c)); auto.
Qed.

Lemma meas_orth m a c : In m ms -> (a < d)%nat -> (c < d)%nat -> rsum d (fun b => mR m a b * mR m c b) = if Nat.eqb a c then 1 else 0.
Proof.
  intros Hm Ha Hcc. destruct (in_range_ms n ms Hp m Hm) as [I1 I2].
  assert (H : orthonormal d d (mul d (tr (Rt (N.to_nat (mp1 m)))) (Rt (N.to_nat (mp2 m))))).
  { apply orth_prod; [apply orth_square|]; apply orth_at; auto. }
  apply (orth_ext d d _ (mR m)) in H.
  2:{ intros i j Hi Hj. rewrite (meas_rot m i j Hm Hi Hj). reflexivity. }
  apply (orth_square d (mR m) H a c Ha Hcc).
Qed.

Lemma seen_first a c : (0 < n)%nat -> (a < d)%nat -> (c < d)%nat -> seen_rot d Rt 0 a c = if Nat.eqb a c then 1 else 0.
Proof. intros Hn Ha Hcc. apply (orth_at 0 Hn a c Ha Hcc). Qed.

Lemma seen_rot_edge m a c : In m ms -> (a < d)%nat -> (c < d)%nat ->
  seen_rot d Rt (N.to_nat (mp2 m)) a c = rsum d (fun b => seen_rot d Rt (N.to_nat (mp1 m)) a b * mR m b c).
Proof.
  intros Hm Ha Hcc. destruct (Hc m Hm) as [C _]. unfold seen_rot.
  rewrite (rsum_ext d _ (fun e => rsum d (fun b => Rt 0%nat e a * Rt (N.to_nat (mp1 m)) e b * mR m b c))).
  2:{ intros e He. rewrite C by auto. rewrite <- rsum_scal. apply rsum_ext. intros. ring. }
  rewrite rsum_swap. apply rsum_ext. intros b Hb. rewrite rsum_scal_r. reflexivity.
Qed.

Lemma seen_pos_edge m a : In m ms -> (a < d)%nat ->
  seen_pos d Rt tt (N.to_nat (mp2 m)) a = seen_pos d Rt tt (N.to_nat (mp1 m)) a + rsum d (fun b => seen_rot d Rt (N.to_nat (mp1 m)) a b * mt m b 0%nat).
Proof.
  intros Hm Ha. destruct (Hc m Hm) as [_ C]. unfold seen_pos, seen_rot.
  rewrite (rsum_ext d (fun b => rsum d _ * _) (fun b => rsum d (fun e => Rt 0%nat e a * Rt (N.to_nat (mp1 m)) e b * mt m b 0%nat))).
  2:{ intros. rewrite rsum_scal_r. reflexivity. }
  rewrite rsum_swap, <- rsum_add. apply rsum_ext. intros b Hb. rewrite C by auto.
  rewrite (rsum_ext d (fun i => _ * _ * _) (fun i => Rt 0%nat b a * (Rt (N.to_nat (mp1 m)) b i * mt m i 0%nat))) by (intros; ring).
  rewrite rsum_scal. ring.
Qed.

(** Rotations that satisfy every measurement and start with the identity are the
    true ones. *)
Lemma rot_unique Q : (0 < n)%nat -> (forall a c, (a < d)%nat -> (c < d)%nat -> Q 0%nat a c = if Nat.eqb a c then 1 else 0) ->
  (forall m a c, In m ms -> (a < d)%nat -> (c < d)%nat ->
     Q (N.to_nat (mp2 m)) a c = rsum d (fun b => Q (N.to_nat (mp1 m)) a b * mR m b c)) ->
  forall i a c, (i < n)%nat -> (a < d)%nat -> (c < d)%nat -> Q i a c = seen_rot d Rt i a c.
Proof.
  intros Hn H0 HE. assert (H : forall i, reached ms i -> forall a c, (a < d)%nat -> (c < d)%nat -> Q (N.to_nat i) a c = seen_rot d Rt (N.to_nat i) a c).
  { intros i. induction 1 as [|m Hm _ IH|m Hm _ IH]; intros a c Ha Hcc.
    - change (N.to_nat 0) with 0%nat. rewrite H0, seen_first; auto.
    - rewrite (HE m), seen_rot_edge by auto. apply rsum_ext. intros b Hb. rewrite IH by auto. reflexivity.
    - assert (G : forall F : nat -> R, F c = rsum d (fun b => rsum d (fun e => F e * mR m e b) * mR m c b)).
      { intros F. rewrite (rsum_ext d _ (fun b => rsum d (fun e => F e * (mR m e b * mR m c b)))).
        2:{ intros b Hb. rewrite <- rsum_scal_r. apply rsum_ext. intros. ring. }
        rewrite rsum_swap. rewrite (rsum_ext d _ (fun e => if Nat.eqb e c then F e else 0)).
        2:{ intros e He. rewrite rsum_scal, meas_orth by auto. destruct (Nat.eqb e c); ring. }
        symmetry. apply rsum_delta; auto. }
      rewrite (G (fun e => Q (N.to_nat (mp1 m)) a e)), (G (fun e => seen_rot d Rt (N.to_nat (mp1 m)) a e)).
      apply rsum_ext. intros b Hb. rewrite <- HE, <- seen_rot_edge by auto. rewrite IH by auto. reflexivity. }
  intros i a c Hi Ha Hcc. pose proof (H (N.of_nat i) (Hconn (N.of_nat i) ltac:(lia)) a c Ha Hcc) as E. rewrite Nat2N.id in E. exact E.
Qed.

Lemma pos_unique t : (forall a, (a < d)%nat -> t 0%nat a = 0) ->
  (forall m a, In m ms -> (a < d)%nat ->
     t (N.to_nat (mp2 m)) a = t (N.to_nat (mp1 m)) a + rsum d (fun b => seen_rot d Rt (N.to_nat (mp1 m)) a b * mt m b 0%nat)) ->
  forall i a, (i < n)%nat -> (a < d)%nat -> t i a = seen_pos d Rt tt i a.
Proof.
  intros H0 HE. assert (H : forall i, reached ms i -> forall a, (a < d)%nat -> t (N.to_nat i) a = seen_pos d Rt tt (N.to_nat i) a).
  { intros i. induction 1 as [|m Hm _ IH|m Hm _ IH]; intros a Ha.
    - change (N.to_nat 0) with 0%nat. rewrite H0 by auto. symmetry. apply rsum_zero'. intros. ring.
    - rewrite (HE m), seen_pos_edge by auto. rewrite IH by auto. reflexivity.
    - specialize (IH a Ha). rewrite (HE m a Hm Ha), (seen_pos_edge m a Hm Ha) in IH. apply Rplus_eq_reg_r in IH. exact IH. }
  intros i a Hi Ha. pose proof (H (N.of_nat i) (Hconn (N.of_nat i) ltac:(lia)) a Ha) as E. rewrite Nat2N.id in E. exact E.
Qed.

Lemma seen_rotation i : (i < n)%nat -> rot_block d (seen_rot d Rt i).
Proof.
  intros Hi. assert (Hn : (0 < n)%nat) by (clear - Hi; lia). destruct (Hrot 0%nat Hn) as (_ & _ & O0 & D0). destruct (Hrot i Hi) as (_ & _ & Oi & Di).
  split.
  - apply (orth_prod d d d (tr (Rt 0%nat)) (Rt i)); auto. apply orth_square; auto.
  - change (seen_rot d Rt i) with (mul d (tr (Rt 0%nat)) (Rt i)). rewrite det_mul, det_tr, D0, Di. ring.
Qed.
End Exact.

Theorem chordal_exact : forall qr svd determinant d n ms (Rt tt : nat -> Mx R) B1 B2 B3,
  (d = 2 \/ d = 3)%nat -> pose_count ms (N.of_nat n) -> (N.of_nat n * N.of_nat (d * d) < two32)%N ->
  (forall m, In m ms -> meas_sized d m /\ 0 < mkappa m /\ 0 < mtau m) ->
  (forall i, (i < n)%nat -> rotation d (Rt i)) ->
  (forall m, In m ms -> consistent d m (Rt (N.to_nat (mp1 m))) (tt (N.to_nat (mp1 m))) (Rt (N.to_nat (mp2 m))) (tt (N.to_nat (mp2 m)))) ->
  (forall i, (i < N.of_nat n)%N -> reached ms i) ->
  constructBMatrices ms = Ok (B1, B2, B3) ->
  solves_if_possible qr (last_cols ((n - 1) * (d * d)) B3) -> solves_if_possible qr (last_cols (d * (n - 1)) B1) ->
  svd_sized svd d -> (forall M, rotation d M -> svd_at svd d d M) -> (forall A, mrows A = d -> mcols A = d -> determinant A = det d A) ->
  exists T, chordalInitialization qr svd determinant ms = Ok T /\ traj d n T /\
    forall i a, (i < n)%nat -> (a < d)%nat ->
      (forall c, (c < d)%nat -> pblk T i a c = seen_rot d Rt i a c) /\ pblk T i a d = seen_pos d Rt tt i a.
Proof.
  intros qr svd dt d n ms Rt tt B1 B2 B3 Hd Hp Hn Hm Hrot Hc Hconn EB L3 L1 Hss Hsv Hdt.
  assert (Hne := ms_nonempty _ _ Hp). assert (Hs : forall m, In m ms -> meas_sized d m) by (intros; apply Hm; auto).
  pose proof (count_pos n ms Hp) as Np.
  destruct (chordal_run qr svd dt d n ms B1 B2 B3 Hd Hne Hs Hn Hp EB) as (Rc & T & E & HT & ZR & V1 & V2 & V0 & VR).
  { intros i M Hi HM _. apply proj_sized; auto. }
  exists T. split; [exact E|]. split; [exact HT|].
  assert (Kp : forall m, In m ms -> 0 < mkappa m) by (intros; apply Hm; auto).
  assert (Tp : forall m, In m ms -> 0 < mtau m) by (intros; apply Hm; auto).
  assert (ZQ : rot_cost d ms (seen_rot d Rt) = 0).
  { apply rsumL_zero. intros m Im. rewrite rsum_zero'; [ring|]. intros c Hcc. apply rsum_zero'. intros a Ha.
    rewrite (seen_rot_edge d ms Rt tt Hc m a c Im Ha Hcc). unfold sq. ring. }
  assert (Z : rot_cost d ms (blocks d (relaxed qr d n B3)) = 0).
  { apply (relaxed_zero qr d n ms B1 B2 B3 Hd Hne Hs Hn Hp EB (seen_rot d Rt)); auto. intros a c Ha Hcc. apply (seen_first d n Rt Hrot); auto. }
  assert (U : forall i a c, (i < n)%nat -> (a < d)%nat -> (c < d)%nat -> blocks d (relaxed qr d n B3) i a c = seen_rot d Rt i a c).
  { apply (rot_unique d n ms Rt tt Hd Hp Hrot Hc Hconn); auto.
    - intros a c Ha Hcc. apply relaxed_first; auto.
    - intros m a c Im Ha Hcc. apply (rot_cost_zero d ms (blocks d (relaxed qr d n B3)) Kp Z m a c Im Ha Hcc). }
  assert (W : forall i a c, (i < n)%nat -> (a < d)%nat -> (c < d)%nat -> Rc a (i * d + c)%nat = seen_rot d Rt i a c).
  { intros i a c Hi Ha Hcc. destruct (Nat.eq_dec i 0) as [->|Ni].
    - cbn [Nat.mul Nat.add]. rewrite V0 by auto. symmetry. apply (seen_first d n Rt Hrot); auto.
    - destruct (VR i ltac:(lia)) as (M & M1 & M2 & M3). rewrite M3 by auto.
      assert (EM : forall a c, (a < d)%nat -> (c < d)%nat -> seen_rot d Rt i a c = M a c) by (intros; rewrite M2, U; auto).
      assert (RM : rotation d M).
      { destruct (seen_rotation d n Rt Hrot i Hi) as [O1 O2]. destruct M1 as [A B]. split; [exact A|]. split; [exact B|]. split.
        - exact (orth_ext _ _ _ _ EM O1).
        - rewrite <- O2. apply det_ext. intros x y Hx Hy. symmetry. auto. }
      destruct (rotation_projection svd dt d M M (Hsv M RM) Hdt) as [_ C]. specialize (C RM).
      assert (D0 : dist2 d d M M = 0) by (apply rsum_zero'; intros; apply rsum_zero'; intros; unfold sq; ring).
      pose proof (dist2_nonneg d d M (projectToRotationGroup svd dt M)) as P.
      rewrite <- (dist2_zero d d M (projectToRotationGroup svd dt M)) by (auto; lra). rewrite EM; auto. }
  assert (ZT : trans_cost d ms (fun i a c => Rc a (i * d + c)%nat) (seen_pos d Rt tt) = 0).
  { rewrite (trans_cost_ext d n ms Hp _ (seen_rot d Rt) _ (seen_pos d Rt tt)) by auto.
    apply rsumL_zero. intros m Im. rewrite rsum_zero'; [ring|]. intros a Ha. rewrite (seen_pos_edge d ms Rt tt Hc m a Im Ha). unfold sq. ring. }
  assert (ZP : trans_cost d ms (seen_rot d Rt) (positions qr d n B1 B2 Rc) = 0).
  { rewrite <- (trans_cost_ext d n ms Hp (fun i a c => Rc a (i * d + c)%nat) (seen_rot d Rt) (positions qr d n B1 B2 Rc) (positions qr d n B1 B2 Rc)) by auto.
    apply (positions_zero qr d n ms B1 B2 B3 Hd Hne Hs Hn Hp EB Rc (seen_pos d Rt tt)); auto.
    intros a Ha. apply rsum_zero'. intros. ring. }
  intros i a Hi Ha. split.
  - intros c Hcc. rewrite V1 by auto. apply W; auto.
  - rewrite V2 by auto. eapply (pos_unique d n ms Rt tt); eauto.
    intros m x Im Hx. apply (trans_cost_zero d ms (seen_rot d Rt) (positions qr d n B1 B2 Rc) Tp ZP m x Im Hx).
Qed.
