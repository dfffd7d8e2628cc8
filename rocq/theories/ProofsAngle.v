(** The angle between rotations and their Frobenius distance. *)
From Coq Require Import List NArith Bool Arith Lia Reals Lra.
From Verif Require Import Base Num RSum Det MatR ModelTypes ModelPoses ModelIO ModelAlign SpecPoseGraph SpecCost SpecSolver SpecFrames SpecAlign ProofsQuat ProofsFrames.
Import ListNotations.
Local Open Scope R_scope.

Lemma fin3 i : (i < 3)%nat -> i = 0%nat \/ i = 1%nat \/ i = 2%nat. Proof. lia. Qed.
Lemma fin2 i : (i < 2)%nat -> i = 0%nat \/ i = 1%nat. Proof. lia. Qed.

Lemma acos_half w : 0 <= w <= 1 -> 0 <= 2 * acos w <= PI.
Proof.
  intros H. pose proof (acos_bound w) as B. split; [lra|].
  destruct (Rle_lt_dec (acos w) (PI / 2)); [lra|]. exfalso.
  assert (C : cos (acos w) < 0) by (apply cos_lt_0; lra). rewrite cos_acos in C by lra. lra.
Qed.

(** Every rotation of space has an axis and an angle. *)
Lemma axis_exists (M : Mx R) : rotation 3 M -> exists t x y z, 0 <= t <= PI /\ x * x + y * y + z * z = 1 /\
  forall i j, (i < 3)%nat -> (j < 3)%nat -> M i j = axis_rot x y z t i j.
Proof.
  intros HR. pose proof (quat_good M HR) as GQ. cbn zeta in GQ. destruct (quat_of M) as [x y z w]. cbn [qx qy qz qw] in GQ.
  assert (E : exists x' y' z' w', 0 <= w' /\ good (M 0%nat 0%nat) (M 0%nat 1%nat) (M 0%nat 2%nat) (M 1%nat 0%nat) (M 1%nat 1%nat)
     (M 1%nat 2%nat) (M 2%nat 0%nat) (M 2%nat 1%nat) (M 2%nat 2%nat) x' y' z' w').
  { destruct (Rle_lt_dec 0 w); [exists x, y, z, w; auto|]. exists (-x), (-y), (-z), (-w). split; [lra|].
    destruct GQ as (E1 & E2 & E3 & E4 & E5 & E6 & E7 & E8 & E9 & E10). repeat split; lra. }
  clear x y z w GQ. destruct E as (x & y & z & w & Hw & GQ). pose proof (good_norm _ _ _ _ _ _ _ _ _ _ _ _ _ GQ) as N1.
  assert (Hn : 0 <= x * x + y * y + z * z) by nra. assert (W1 : w <= 1) by nra.
  set (n := sqrt (x * x + y * y + z * z)). assert (Nn : n * n = x * x + y * y + z * z) by (apply sqrt_sqrt; auto).
  assert (N0 : 0 <= n) by apply sqrt_pos.
  assert (Ec : cos (2 * acos w) = 2 * (w * w) - 1). { rewrite cos_2a_cos, cos_acos by lra. ring. }
  assert (Es : sin (2 * acos w) = 2 * (w * n)).
  { rewrite sin_2a, cos_acos, sin_acos by lra. unfold n. replace (1 - Rsqr w) with (x * x + y * y + z * z) by (unfold Rsqr; lra). ring. }
  destruct GQ as (E1 & E2 & E3 & E4 & E5 & E6 & E7 & E8 & E9 & E10).
  exists (2 * acos w). destruct (Req_dec n 0) as [Z|Z].
  - exists 1, 0, 0. split; [apply acos_half; lra|]. split; [ring|].
    assert (Z3 : x * x + y * y + z * z = 0) by (rewrite <- Nn, Z; ring). destruct (sq3_zero _ _ _ Z3) as (-> & -> & ->).
    intros i j Hi Hj. unfold axis_rot. rewrite Ec, Es, Z.
    destruct (fin3 i Hi) as [->|[->| ->]], (fin3 j Hj) as [->|[->| ->]]; cbn [Nat.eqb]; nra.
  - exists (x / n), (y / n), (z / n). split; [apply acos_half; lra|]. split.
    { replace (x / n * (x / n) + y / n * (y / n) + z / n * (z / n)) with ((x * x + y * y + z * z) / (n * n)) by (field; auto). rewrite <- Nn. field. auto. }
    assert (D : forall p q, (1 - cos (2 * acos w)) * (p / n * (q / n)) = 2 * (p * q)).
    { intros p q. rewrite Ec. replace (1 - (2 * (w * w) - 1)) with (2 * (n * n)) by nra. field. auto. }
    assert (F : forall p, sin (2 * acos w) * (p / n) = 2 * (w * p)) by (intros; rewrite Es; field; auto).
    assert (F' : forall p, sin (2 * acos w) * - (p / n) = - (2 * (w * p))) by (intros; rewrite Es; field; auto).
    intros i j Hi Hj. unfold axis_rot.
    destruct (fin3 i Hi) as [->|[->| ->]], (fin3 j Hj) as [->|[->| ->]]; cbn [Nat.eqb]; rewrite D, ?F, ?F', ?Ec; lra.
Qed.

Lemma plane_exists (M : nat -> nat -> R) : rot_block 2 M -> exists t, 0 <= t <= PI /\
  ((forall i j, (i < 2)%nat -> (j < 2)%nat -> M i j = plane_rot t i j) \/ (forall i j, (i < 2)%nat -> (j < 2)%nat -> M i j = plane_rot (- t) i j)).
Proof.
  intros [O D]. pose proof (O 0 0 ltac:(lia) ltac:(lia))%nat as O00. pose proof (O 0 1 ltac:(lia) ltac:(lia))%nat as O01. pose proof (O 1 1 ltac:(lia) ltac:(lia))%nat as O11.
  cbn in O00, O01, O11, D. unfold minor, skip in D. cbn in D.
  set (a := M 0%nat 0%nat) in *. set (b := M 0%nat 1%nat) in *. set (c := M 1%nat 0%nat) in *. set (e := M 1%nat 1%nat) in *.
  assert (Q : a * a + c * c = 1) by lra. assert (P : a * b + c * e = 0) by lra. assert (T : a * e - b * c = 1) by lra.
  assert (Ee : e = a). { transitivity (e * (a * a + c * c)); [rewrite Q; ring|]. replace (e * (a * a + c * c)) with (a * (a * e - b * c) + c * (a * b + c * e)) by ring. rewrite P, T. ring. }
  assert (Eb : b = - c). { transitivity (b * (a * a + c * c)); [rewrite Q; ring|]. replace (b * (a * a + c * c)) with (a * (a * b + c * e) - c * (a * e - b * c)) by ring. rewrite P, T. ring. }
  assert (A1 : -1 <= a <= 1) by nra.
  exists (acos a). split; [apply acos_bound|].
  assert (S2 : sqrt (1 - Rsqr a) = Rabs c). { replace (1 - Rsqr a) with (Rsqr c) by (unfold Rsqr; lra). apply sqrt_Rsqr_abs. }
  destruct (Rle_lt_dec 0 c) as [Hc|Hc]; [left|right]; intros i j Hi Hj; unfold plane_rot;
    rewrite ?cos_neg, ?sin_neg, cos_acos, sin_acos, S2 by lra; [rewrite Rabs_right by lra|rewrite Rabs_left by lra];
    destruct (fin2 i Hi) as [->| ->], (fin2 j Hj) as [->| ->]; fold a b c e; lra.
Qed.

Lemma turns_rot d t C : turns d t C -> rot_block d C.
Proof.
  intros [[-> [->| ->]]|[-> (x & y & z & N1 & ->)]].
  - split; [|cbn; unfold minor, skip; cbn; pose proof (sin2_cos2 t); unfold Rsqr in *; lra].
    intros b c Hb Hc. pose proof (sin2_cos2 t). unfold Rsqr in *.
    destruct (fin2 b Hb) as [->| ->], (fin2 c Hc) as [->| ->]; cbn; lra.
  - split; [|cbn; unfold minor, skip; cbn; pose proof (sin2_cos2 (-t)); unfold Rsqr in *; lra].
    intros b c Hb Hc. pose proof (sin2_cos2 (-t)). unfold Rsqr in *.
    destruct (fin2 b Hb) as [->| ->], (fin2 c Hc) as [->| ->]; cbn; lra.
  - pose proof (sin2_cos2 t) as SC. unfold Rsqr in SC. set (s := sin t) in *. set (c := cos t) in *.
    assert (Ez : z * z = 1 - x * x - y * y) by lra. assert (Es : s * s = 1 - c * c) by lra.
    split.
    + intros b e Hb He. destruct (fin3 b Hb) as [->|[->| ->]], (fin3 e He) as [->|[->| ->]]; cbn; unfold axis_rot; cbn; fold s c; ring [Ez Es].
    + cbn; unfold minor, skip; cbn; unfold axis_rot; cbn; fold s c; ring [Ez Es].
Qed.

(** The squared distance to the identity. *)
Lemma turns_dist d t C : turns d t C -> dist2 d d unit_block C = 8 * (sin (t / 2) * sin (t / 2)).
Proof.
  intros H. assert (SC : sin t * sin t = 1 - cos t * cos t) by (pose proof (sin2_cos2 t); unfold Rsqr in *; lra).
  assert (E : 8 * (sin (t / 2) * sin (t / 2)) = 4 - 4 * cos t).
  { replace (cos t) with (cos (2 * (t / 2))) by (f_equal; field). rewrite cos_2a_sin. ring. }
  rewrite E. clear E. destruct H as [[-> [->| ->]]|[-> (x & y & z & N1 & ->)]].
  - cbn. unfold sq, unit_block. cbn. ring [SC].
  - cbn. unfold sq, unit_block. cbn. rewrite cos_neg, sin_neg. ring [SC].
  - assert (Ez : z * z = 1 - x * x - y * y) by lra. cbn. unfold sq, unit_block, axis_rot. cbn. ring [SC Ez].
Qed.

Lemma dist2_left d A B C : orthonormal d d A -> (forall i j, (i < d)%nat -> (j < d)%nat -> B i j = rsum d (fun k => A i k * C k j)) ->
  dist2 d d A B = dist2 d d unit_block C.
Proof.
  intros O E. unfold dist2.
  rewrite (rsum_swap d d (fun i j => sq (unit_block i j - C i j))), (rsum_swap d d (fun i j => sq (A i j - B i j))).
  apply rsum_ext. intros j Hj. rewrite <- (orth_apply d d A (fun k => unit_block k j - C k j) O).
  apply rsum_ext. intros i Hi. f_equal. rewrite E by auto.
  rewrite (rsum_ext d (fun k => A i k * (unit_block k j - C k j)) (fun k => A i k * unit_block k j - A i k * C k j)) by (intros; ring).
  rewrite rsum_sub. f_equal. symmetry.
  transitivity (rsum d (fun k => if (j =? k)%nat then A i k else 0)); [|apply (rsum_delta' d j (fun k => A i k)); auto].
  apply rsum_ext. intros k _. unfold unit_block. rewrite (Nat.eqb_sym j k). destruct (k =? j)%nat; ring.
Qed.

Lemma angle_dist d A B t : orthonormal d d A -> angle d A B t -> dist2 d d A B = 8 * (sin (t / 2) * sin (t / 2)).
Proof. intros O [_ (C & HC & E)]. rewrite (dist2_left d A B C O E). apply turns_dist; auto. Qed.

Lemma rel_rot_part d A B i j : (i < d)%nat -> (j < d)%nat -> rel d A B i j = rsum d (fun k => A k i * B k j).
Proof.
  intros Hi Hj. unfold rel, comp. destruct (Nat.eqb_spec j d); [lia|]. rewrite Rplus_0_r. apply rsum_ext. intros k Hk.
  unfold pinv. destruct (Nat.eqb_spec k d); [lia|]. reflexivity.
Qed.

Lemma angle_exists d A B : (d = 2 \/ d = 3)%nat -> rot_block d A -> rot_block d B -> exists t, angle d A B t.
Proof.
  intros Hd HA HB. set (C0 := rel d A B).
  assert (RC : rot_block d C0) by (apply comp_rot; [apply pinv_rot|]; auto).
  assert (EB : forall i j, (i < d)%nat -> (j < d)%nat -> B i j = rsum d (fun k => A i k * C0 k j)).
  { intros i j Hi Hj. rewrite (rsum_ext d _ (fun k => rsum d (fun l => A i k * A l k * B l j))).
    2:{ intros k Hk. unfold C0. rewrite rel_rot_part by auto. rewrite <- rsum_scal. apply rsum_ext. intros; ring. }
    rewrite rsum_swap. rewrite (rsum_ext d _ (fun l => if (i =? l)%nat then B l j else 0)); [symmetry; apply (rsum_delta' d i (fun l => B l j)); auto|].
    intros l Hl. rewrite rsum_scal_r. pose proof (orth_square d A (proj1 HA) i l Hi Hl) as O. unfold tr in O. rewrite O. destruct (i =? l)%nat; ring. }
  destruct Hd as [-> | ->].
  - destruct (plane_exists C0 RC) as (t & Ht & [E|E]); exists t; (split; [exact Ht|]); [exists (plane_rot t)|exists (plane_rot (- t))];
      (split; [left; auto|]); intros i j Hi Hj; rewrite EB by auto; apply rsum_ext; intros k Hk; rewrite E by auto; reflexivity.
  - destruct (axis_exists (mkMx 3 3 C0)) as (t & x & y & z & Ht & N1 & E); [destruct RC; repeat split; auto|].
    exists t. split; [exact Ht|]. exists (axis_rot x y z t). split; [right; split; auto; exists x, y, z; auto|].
    intros i j Hi Hj. rewrite EB by auto. apply rsum_ext. intros k Hk. rewrite <- E by auto. reflexivity.
Qed.

Lemma half_sin t r : 0 <= t <= PI -> 0 <= r <= PI -> (sin (t / 2) * sin (t / 2) < sin (r / 2) * sin (r / 2) <-> t < r).
Proof.
  intros Ht Hr. pose proof PI_RGT_0 as P.
  assert (St : 0 <= sin (t / 2)) by (apply sin_ge_0; lra). assert (Sr : 0 <= sin (r / 2)) by (apply sin_ge_0; lra).
  split; intros L.
  - destruct (Rlt_le_dec t r) as [|G]; auto. exfalso. assert (sin (r / 2) <= sin (t / 2)) by (apply sin_incr_1; lra). nra.
  - assert (sin (t / 2) > sin (r / 2) -> False). { intros G. assert (sin (t / 2) <= sin (r / 2)) by (apply sin_incr_1; lra). lra. }
    assert (sin (t / 2) < sin (r / 2)) by (apply sin_increasing_1; lra). nra.
Qed.

Lemma threshold_sq r : angular2ChordalSO3 sin r * angular2ChordalSO3 sin r = 8 * (sin (r / 2) * sin (r / 2)).
Proof.
  unfold angular2ChordalSO3. numr. set (s := sin _). pose proof (sqrt_sqrt 2 ltac:(lra)) as E. ring [E].
Qed.
Lemma threshold_pos r : 0 < r <= PI -> 0 < angular2ChordalSO3 sin r.
Proof.
  intros H. pose proof PI_RGT_0. unfold angular2ChordalSO3. numr. apply Rmult_lt_0_compat; [|apply sin_gt_0; lra].
  apply Rmult_lt_0_compat; [lra|]. apply sqrt_lt_R0. lra.
Qed.

(** The threshold is the chordal distance of an angle. *)
Lemma angle_threshold d A B : (d = 2 \/ d = 3)%nat -> rot_block d A -> rot_block d B ->
  exists t, angle d A B t /\ (forall t', angle d A B t' -> t' = t) /\
  forall r, 0 <= r <= PI -> (dist2 d d A B < angular2ChordalSO3 sin r * angular2ChordalSO3 sin r <-> t < r).
Proof.
  intros Hd HA HB. destruct (angle_exists d A B Hd HA HB) as [t Ht]. exists t. split; [exact Ht|].
  assert (Q : forall r, 0 <= r <= PI -> (dist2 d d A B < angular2ChordalSO3 sin r * angular2ChordalSO3 sin r <-> t < r)).
  { intros r Hr. rewrite threshold_sq, (angle_dist d A B t (proj1 HA) Ht). rewrite <- (half_sin t r (proj1 Ht) Hr). lra. }
  split; [|exact Q]. intros t' Ht'.
  pose proof (angle_dist d A B t (proj1 HA) Ht) as E1. rewrite (angle_dist d A B t' (proj1 HA) Ht') in E1.
  pose proof (half_sin t t' (proj1 Ht) (proj1 Ht')) as H1. pose proof (half_sin t' t (proj1 Ht') (proj1 Ht)) as H2.
  destruct (Rtotal_order t t') as [L|[L|L]]; [apply H1 in L; lra|auto|apply H2 in L; lra].
Qed.

Lemma dist2_le8 d A B : (d = 2 \/ d = 3)%nat -> rot_block d A -> rot_block d B -> dist2 d d A B <= 8.
Proof.
  intros Hd HA HB. destruct (angle_exists d A B Hd HA HB) as [t Ht]. rewrite (angle_dist d A B t (proj1 HA) Ht).
  pose proof (SIN_bound (t / 2)). nra.
Qed.
