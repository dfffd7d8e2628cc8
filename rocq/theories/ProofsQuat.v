(** Eigen's conversions between rotation matrices and quaternions, over the reals. *)
From Coq Require Import List Arith Lia Bool String Reals Lra.
From Verif Require Import Base Num RSum Det ModelTypes ModelIO SpecCost SpecSolver SpecIO.
Import ListNotations.
Local Open Scope R_scope.

Section SO3.
Variables a b c d e f g h i : R.
Hypothesis C0 : a * a + d * d + g * g = 1.
Hypothesis C1 : b * b + e * e + h * h = 1.
Hypothesis C2 : c * c + f * f + i * i = 1.
Hypothesis C01 : a * b + d * e + g * h = 0.
Hypothesis C02 : a * c + d * f + g * i = 0.
Hypothesis C12 : b * c + e * f + h * i = 0.
Hypothesis D : a * (e * i - f * h) - b * (d * i - f * g) + c * (d * h - e * g) = 1.

Lemma sq3_zero x y z : x * x + y * y + z * z = 0 -> x = 0 /\ y = 0 /\ z = 0.
Proof. intros E. pose proof (Rle_0_sqr x). pose proof (Rle_0_sqr y). pose proof (Rle_0_sqr z). unfold Rsqr in *.
  repeat split; apply Rsqr_0_uniq; unfold Rsqr; lra. Qed.
(** Each column is the cross product of the other two. *)
Lemma cross2 : c = d * h - g * e /\ f = g * b - a * h /\ i = a * e - d * b.
Proof.
  destruct (sq3_zero (c - (d * h - g * e)) (f - (g * b - a * h)) (i - (a * e - d * b))) as (A1 & A2 & A3); [|repeat split; lra].
  transitivity ((c * c + f * f + i * i) - 2 * (a * (e * i - f * h) - b * (d * i - f * g) + c * (d * h - e * g))
    + ((a * a + d * d + g * g) * (b * b + e * e + h * h) - (a * b + d * e + g * h) * (a * b + d * e + g * h))); [ring|].
  rewrite C0, C1, C2, C01, D. ring.
Qed.
Lemma cross0 : a = e * i - h * f /\ d = h * c - b * i /\ g = b * f - e * c.
Proof.
  destruct (sq3_zero (a - (e * i - h * f)) (d - (h * c - b * i)) (g - (b * f - e * c))) as (A1 & A2 & A3); [|repeat split; lra].
  transitivity ((a * a + d * d + g * g) - 2 * (a * (e * i - f * h) - b * (d * i - f * g) + c * (d * h - e * g))
    + ((b * b + e * e + h * h) * (c * c + f * f + i * i) - (b * c + e * f + h * i) * (b * c + e * f + h * i))); [ring|].
  rewrite C0, C1, C2, C12, D. ring.
Qed.
Lemma cross1 : b = f * g - i * d /\ e = i * a - c * g /\ h = c * d - f * a.
Proof.
  destruct (sq3_zero (b - (f * g - i * d)) (e - (i * a - c * g)) (h - (c * d - f * a))) as (A1 & A2 & A3); [|repeat split; lra].
  transitivity ((b * b + e * e + h * h) - 2 * (a * (e * i - f * h) - b * (d * i - f * g) + c * (d * h - e * g))
    + ((a * a + d * d + g * g) * (c * c + f * f + i * i) - (a * c + d * f + g * i) * (a * c + d * f + g * i))); [ring|].
  rewrite C0, C1, C2, C02, D. ring.
Qed.
Lemma rows_on : a * a + b * b + c * c = 1 /\ d * d + e * e + f * f = 1 /\ g * g + h * h + i * i = 1 /\
  a * d + b * e + c * f = 0 /\ a * g + b * h + c * i = 0 /\ d * g + e * h + f * i = 0.
Proof.
  destruct cross0 as (A0 & D0 & G0). destruct cross1 as (B1 & E1 & H1). destruct cross2 as (CC & FF & II).
  repeat split.
  - transitivity (a * (e * i - f * h) - b * (d * i - f * g) + c * (d * h - e * g)); [|exact D].
    rewrite CC at 2. rewrite B1 at 2. rewrite A0 at 2. ring.
  - transitivity (a * (e * i - f * h) - b * (d * i - f * g) + c * (d * h - e * g)); [|exact D].
    rewrite FF at 2. rewrite E1 at 2. rewrite D0 at 2. ring.
  - transitivity (a * (e * i - f * h) - b * (d * i - f * g) + c * (d * h - e * g)); [|exact D].
    rewrite II at 2. rewrite H1 at 2. rewrite G0 at 2. ring.
  - rewrite D0, E1, FF. ring.
  - rewrite G0, H1, II. ring.
  - rewrite G0, H1, II. ring.
Qed.

Let T := 1 + a + e + i.
Let U := 1 + a - e - i.
Let V := 1 + e - a - i.
Let W := 1 + i - a - e.

Ltac lin := destruct cross0 as (A0 & D0 & G0); destruct cross1 as (B1 & E1 & H1); destruct cross2 as (CC & FF & II);
  destruct rows_on as (R0 & R1 & R2 & R01 & R02 & R12); unfold T, U, V, W in *; lra.

Lemma TU : (h - f) * (h - f) = T * U. Proof. lin. Qed.
Lemma TV : (c - g) * (c - g) = T * V. Proof. lin. Qed.
Lemma TW : (d - b) * (d - b) = T * W. Proof. lin. Qed.
Lemma UV : (b + d) * (b + d) = U * V. Proof. lin. Qed.
Lemma UW : (c + g) * (c + g) = U * W. Proof. lin. Qed.
Lemma VW : (f + h) * (f + h) = V * W. Proof. lin. Qed.
Lemma Txy : (h - f) * (c - g) = T * (b + d). Proof. lin. Qed.
Lemma Txz : (h - f) * (d - b) = T * (c + g). Proof. lin. Qed.
Lemma Tyz : (c - g) * (d - b) = T * (f + h). Proof. lin. Qed.
Lemma Uyz : (b + d) * (c + g) = U * (f + h). Proof. lin. Qed.
Lemma Uyw : (b + d) * (h - f) = U * (c - g). Proof. lin. Qed.
Lemma Uzw : (c + g) * (h - f) = U * (d - b). Proof. lin. Qed.
Lemma Vxz : (b + d) * (f + h) = V * (c + g). Proof. lin. Qed.
Lemma Vxw : (b + d) * (c - g) = V * (h - f). Proof. lin. Qed.
Lemma Vzw : (f + h) * (c - g) = V * (d - b). Proof. lin. Qed.
Lemma Wxy : (c + g) * (f + h) = W * (b + d). Proof. lin. Qed.
Lemma Wxw : (c + g) * (d - b) = W * (h - f). Proof. lin. Qed.
Lemma Wyw : (f + h) * (d - b) = W * (c - g). Proof. lin. Qed.

(** The products of the coordinates of the quaternion, whatever the case. *)
Definition good (x y z w : R) : Prop :=
  4 * (x * x) = U /\ 4 * (y * y) = V /\ 4 * (z * z) = W /\ 4 * (w * w) = T /\
  4 * (x * y) = b + d /\ 4 * (x * z) = c + g /\ 4 * (y * z) = f + h /\
  4 * (x * w) = h - f /\ 4 * (y * w) = c - g /\ 4 * (z * w) = d - b.

Lemma scale P Q X k : P = X * Q -> 4 * (k * k) * X = 1 -> 4 * (P * (k * k)) = Q.
Proof. intros -> E. transitivity (4 * (k * k) * X * Q); [ring|]. rewrite E. ring. Qed.

Lemma good_T t k : t * t = T -> k * t = 1 / 2 -> good ((h - f) * k) ((c - g) * k) ((d - b) * k) (1 / 2 * t).
Proof.
  intros Ht Hk. assert (K : 4 * (k * k) * T = 1) by (rewrite <- Ht; transitivity (4 * (k * t) * (k * t)); [ring|rewrite Hk; field]).
  unfold good. repeat split.
  - rewrite <- (scale _ _ _ k TU K). ring.
  - rewrite <- (scale _ _ _ k TV K). ring.
  - rewrite <- (scale _ _ _ k TW K). ring.
  - rewrite <- Ht. field.
  - rewrite <- (scale _ _ _ k Txy K). ring.
  - rewrite <- (scale _ _ _ k Txz K). ring.
  - rewrite <- (scale _ _ _ k Tyz K). ring.
  - transitivity (2 * (h - f) * (k * t)); [field|rewrite Hk; field].
  - transitivity (2 * (c - g) * (k * t)); [field|rewrite Hk; field].
  - transitivity (2 * (d - b) * (k * t)); [field|rewrite Hk; field].
Qed.
Lemma good_U t k : t * t = U -> k * t = 1 / 2 -> good (1 / 2 * t) ((b + d) * k) ((c + g) * k) ((h - f) * k).
Proof.
  intros Ht Hk. assert (K : 4 * (k * k) * U = 1) by (rewrite <- Ht; transitivity (4 * (k * t) * (k * t)); [ring|rewrite Hk; field]).
  unfold good. repeat split.
  - rewrite <- Ht. field.
  - rewrite <- (scale _ _ _ k UV K). ring.
  - rewrite <- (scale _ _ _ k UW K). ring.
  - rewrite <- (scale _ _ _ k (eq_trans TU (Rmult_comm T U)) K). ring.
  - transitivity (2 * (b + d) * (k * t)); [field|rewrite Hk; field].
  - transitivity (2 * (c + g) * (k * t)); [field|rewrite Hk; field].
  - rewrite <- (scale _ _ _ k Uyz K). ring.
  - transitivity (2 * (h - f) * (k * t)); [field|rewrite Hk; field].
  - rewrite <- (scale _ _ _ k Uyw K). ring.
  - rewrite <- (scale _ _ _ k Uzw K). ring.
Qed.
Lemma good_V t k : t * t = V -> k * t = 1 / 2 -> good ((b + d) * k) (1 / 2 * t) ((f + h) * k) ((c - g) * k).
Proof.
  intros Ht Hk. assert (K : 4 * (k * k) * V = 1) by (rewrite <- Ht; transitivity (4 * (k * t) * (k * t)); [ring|rewrite Hk; field]).
  unfold good. repeat split.
  - rewrite <- (scale _ _ _ k (eq_trans UV (Rmult_comm U V)) K). ring.
  - rewrite <- Ht. field.
  - rewrite <- (scale _ _ _ k VW K). ring.
  - rewrite <- (scale _ _ _ k (eq_trans TV (Rmult_comm T V)) K). ring.
  - transitivity (2 * (b + d) * (k * t)); [field|rewrite Hk; field].
  - rewrite <- (scale _ _ _ k Vxz K). ring.
  - transitivity (2 * (f + h) * (k * t)); [field|rewrite Hk; field].
  - rewrite <- (scale _ _ _ k Vxw K). ring.
  - transitivity (2 * (c - g) * (k * t)); [field|rewrite Hk; field].
  - rewrite <- (scale _ _ _ k Vzw K). ring.
Qed.
Lemma good_W t k : t * t = W -> k * t = 1 / 2 -> good ((c + g) * k) ((f + h) * k) (1 / 2 * t) ((d - b) * k).
Proof.
  intros Ht Hk. assert (K : 4 * (k * k) * W = 1) by (rewrite <- Ht; transitivity (4 * (k * t) * (k * t)); [ring|rewrite Hk; field]).
  unfold good. repeat split.
  - rewrite <- (scale _ _ _ k (eq_trans UW (Rmult_comm U W)) K). ring.
  - rewrite <- (scale _ _ _ k (eq_trans VW (Rmult_comm V W)) K). ring.
  - rewrite <- Ht. field.
  - rewrite <- (scale _ _ _ k (eq_trans TW (Rmult_comm T W)) K). ring.
  - rewrite <- (scale _ _ _ k Wxy K). ring.
  - transitivity (2 * (c + g) * (k * t)); [field|rewrite Hk; field].
  - transitivity (2 * (f + h) * (k * t)); [field|rewrite Hk; field].
  - rewrite <- (scale _ _ _ k Wxw K). ring.
  - rewrite <- (scale _ _ _ k Wyw K). ring.
  - transitivity (2 * (d - b) * (k * t)); [field|rewrite Hk; field].
Qed.
End SO3.

(** ** Matrices *)
Lemma rot3 (M : Mx R) : rotation 3 M ->
  let m := fun i j => Num.mat M i j in
  m 0%nat 0%nat * m 0%nat 0%nat + m 1%nat 0%nat * m 1%nat 0%nat + m 2%nat 0%nat * m 2%nat 0%nat = 1 /\
  m 0%nat 1%nat * m 0%nat 1%nat + m 1%nat 1%nat * m 1%nat 1%nat + m 2%nat 1%nat * m 2%nat 1%nat = 1 /\
  m 0%nat 2%nat * m 0%nat 2%nat + m 1%nat 2%nat * m 1%nat 2%nat + m 2%nat 2%nat * m 2%nat 2%nat = 1 /\
  m 0%nat 0%nat * m 0%nat 1%nat + m 1%nat 0%nat * m 1%nat 1%nat + m 2%nat 0%nat * m 2%nat 1%nat = 0 /\
  m 0%nat 0%nat * m 0%nat 2%nat + m 1%nat 0%nat * m 1%nat 2%nat + m 2%nat 0%nat * m 2%nat 2%nat = 0 /\
  m 0%nat 1%nat * m 0%nat 2%nat + m 1%nat 1%nat * m 1%nat 2%nat + m 2%nat 1%nat * m 2%nat 2%nat = 0 /\
  m 0%nat 0%nat * (m 1%nat 1%nat * m 2%nat 2%nat - m 1%nat 2%nat * m 2%nat 1%nat) - m 0%nat 1%nat * (m 1%nat 0%nat * m 2%nat 2%nat - m 1%nat 2%nat * m 2%nat 0%nat)
   + m 0%nat 2%nat * (m 1%nat 0%nat * m 2%nat 1%nat - m 1%nat 1%nat * m 2%nat 0%nat) = 1.
Proof.
  intros (_ & _ & O & Dt) m. unfold m.
  pose proof (O 0%nat 0%nat ltac:(lia) ltac:(lia)) as E00. pose proof (O 1%nat 1%nat ltac:(lia) ltac:(lia)) as E11. pose proof (O 2%nat 2%nat ltac:(lia) ltac:(lia)) as E22.
  pose proof (O 0%nat 1%nat ltac:(lia) ltac:(lia)) as E01. pose proof (O 0%nat 2%nat ltac:(lia) ltac:(lia)) as E02. pose proof (O 1%nat 2%nat ltac:(lia) ltac:(lia)) as E12.
  unfold det, minor, skip, sgn in Dt. cbn in *. repeat split; lra.
Qed.

Lemma half_R : @half R NumR = 1 / 2.
Proof. reflexivity. Qed.
Lemma sqrt_k x : 0 < x -> sqrt x * sqrt x = x /\ (1 / 2) / sqrt x * sqrt x = 1 / 2.
Proof. intros P. split; [apply sqrt_sqrt; lra|]. pose proof (sqrt_lt_R0 x P). field. lra. Qed.

Lemma quat_good (M : Mx R) : rotation 3 M ->
  let q := quat_of M in
  good (M 0%nat 0%nat) (M 0%nat 1%nat) (M 0%nat 2%nat) (M 1%nat 0%nat) (M 1%nat 1%nat) (M 1%nat 2%nat) (M 2%nat 0%nat) (M 2%nat 1%nat) (M 2%nat 2%nat)
    (qx q) (qy q) (qz q) (qw q).
Proof.
  intros HR. pose proof (rot3 M HR) as (C0 & C1 & C2 & C01 & C02 & C12 & D). cbn beta in *.
  unfold quat_of, q_trace, q_big. rewrite half_R. cbn [nltb n0 n1 nadd nsub nmul ndiv nsqrt NumR].
  destruct M as [mr mc M]. cbn [Num.mat] in *.
  remember (M 0%nat 0%nat) as a. remember (M 0%nat 1%nat) as b. remember (M 0%nat 2%nat) as c. remember (M 1%nat 0%nat) as d. remember (M 1%nat 1%nat) as e.
  remember (M 1%nat 2%nat) as f. remember (M 2%nat 0%nat) as g. remember (M 2%nat 1%nat) as h. remember (M 2%nat 2%nat) as i.
  destruct (Rlt_dec 0 (a + e + i)) as [P|P]; [|destruct (Rlt_dec a e) as [Q|Q]];
    [| rewrite <- Heqe; destruct (Rlt_dec e i) as [Q'|Q']| rewrite <- Heqa; destruct (Rlt_dec a i) as [Q'|Q']];
    rewrite <- ?Heqa, <- ?Heqb, <- ?Heqc, <- ?Heqd, <- ?Heqe, <- ?Heqf, <- ?Heqg, <- ?Heqh, <- ?Heqi; cbn [qx qy qz qw].
  - destruct (sqrt_k (a + e + i + 1) ltac:(lra)) as [E1 E2]. apply good_T; auto. rewrite E1. ring.
  - destruct (sqrt_k (i - a - e + 1) ltac:(lra)) as [E1 E2]. apply good_W; auto. rewrite E1. ring.
  - destruct (sqrt_k (e - i - a + 1) ltac:(lra)) as [E1 E2]. rewrite (Rplus_comm h f). apply good_V; auto. rewrite E1. ring.
  - destruct (sqrt_k (i - a - e + 1) ltac:(lra)) as [E1 E2]. apply good_W; auto. rewrite E1. ring.
  - destruct (sqrt_k (a - e - i + 1) ltac:(lra)) as [E1 E2]. rewrite (Rplus_comm d b), (Rplus_comm g c). apply good_U; auto. rewrite E1. ring.
Qed.

Lemma good_norm a b c d e f g h i x y z w : good a b c d e f g h i x y z w -> x * x + y * y + z * z + w * w = 1.
Proof. intros (E1 & E2 & E3 & E4 & _). lra. Qed.

(** Normalising a unit quaternion changes nothing. *)
Lemma normalize_unit (q : Quat R) : qx q * qx q + qy q * qy q + qz q * qz q + qw q * qw q = 1 -> q_normalize q = q.
Proof.
  intros E. unfold q_normalize. cbn [nltb n0 nadd nmul ndiv nsqrt NumR]. rewrite E. destruct (Rlt_dec 0 1); [|lra]. rewrite sqrt_1.
  destruct q as [x y z w]; cbn. f_equal; field.
Qed.

Theorem rot_quat (M : Mx R) : rotation 3 M -> mx_eq (reread_rot (fun x => x) M) M.
Proof.
  intros HR. pose proof (quat_good M HR) as GQ. cbn beta zeta in GQ. unfold reread_rot. destruct (quat_of M) as [x y z w]. cbn [qx qy qz qw] in *.
  rewrite normalize_unit by (cbn [qx qy qz qw]; eapply good_norm; eauto). destruct GQ as (E1 & E2 & E3 & E4 & E5 & E6 & E7 & E8 & E9 & E10).
  destruct HR as (R3 & C3 & _). split; [cbn; auto|]. split; [cbn; auto|]. intros i j Hi Hj. cbn [q_rot mlit mrows mcols] in Hi, Hj.
  assert (Ci : (i = 0 \/ i = 1 \/ i = 2)%nat) by lia. assert (Cj : (j = 0 \/ j = 1 \/ j = 2)%nat) by lia.
  unfold q_rot, mlit. cbn [qx qy qz qw Num.mat nofZ n1 nadd nsub nmul NumR].
  destruct Ci as [->|[->| ->]], Cj as [->|[->| ->]]; cbn [nth]; lra.
Qed.

(** The matrix of a unit quaternion is a rotation. *)
Theorem unit_quat_rotation (q : Quat R) : qx q * qx q + qy q * qy q + qz q * qz q + qw q * qw q = 1 -> rotation 3 (q_rot q).
Proof.
  destruct q as [x y z w]. cbn [qx qy qz qw]. intros E. 
  split; [reflexivity|]. split; [reflexivity|]. split.
  - intros b c Hb Hc. assert (Cb : (b = 0 \/ b = 1 \/ b = 2)%nat) by lia. assert (Cc : (c = 0 \/ c = 1 \/ c = 2)%nat) by lia.
    unfold q_rot, mlit. cbn [qx qy qz qw Num.mat nofZ n1 nadd nsub nmul NumR].
    destruct Cb as [->|[->| ->]], Cc as [->|[->| ->]]; cbn [nsum nth Nat.eqb nadd n0 NumR].
    + transitivity (1 + 4 * (y * y + z * z) * (x * x + y * y + z * z + w * w - 1)); [ring|rewrite E; ring].
    + transitivity (- (4) * x * y * (x * x + y * y + z * z + w * w - 1)); [ring|rewrite E; ring].
    + transitivity (- (4) * x * z * (x * x + y * y + z * z + w * w - 1)); [ring|rewrite E; ring].
    + transitivity (- (4) * x * y * (x * x + y * y + z * z + w * w - 1)); [ring|rewrite E; ring].
    + transitivity (1 + 4 * (x * x + z * z) * (x * x + y * y + z * z + w * w - 1)); [ring|rewrite E; ring].
    + transitivity (- (4) * y * z * (x * x + y * y + z * z + w * w - 1)); [ring|rewrite E; ring].
    + transitivity (- (4) * x * z * (x * x + y * y + z * z + w * w - 1)); [ring|rewrite E; ring].
    + transitivity (- (4) * y * z * (x * x + y * y + z * z + w * w - 1)); [ring|rewrite E; ring].
    + transitivity (1 + 4 * (x * x + y * y) * (x * x + y * y + z * z + w * w - 1)); [ring|rewrite E; ring].
  - unfold det, minor, skip, sgn, q_rot, mlit. cbn [qx qy qz qw Num.mat nofZ n1 nadd nsub nmul NumR]. cbn [nsum nth Nat.eqb nadd n0 NumR Nat.ltb Nat.leb]. 
    transitivity (1 + 4 * (x * x + y * y + z * z) * (x * x + y * y + z * z + w * w - 1)); [ring|rewrite E; ring].
Qed.
