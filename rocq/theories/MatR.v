(** Real matrices as functions: products, inner products, orthogonality. *)
From Coq Require Import List Arith Bool Lia Reals Lra Psatz.
From Verif Require Import Num RSum Det SpecCost SpecSolver.
Local Open Scope R_scope.

Definition ip (r c : nat) (A B : mat) : R := rsum r (fun i => rsum c (fun j => A i j * B i j)).

Lemma ip_ext r c A B A' B' : (forall i j, (i < r)%nat -> (j < c)%nat -> A i j = A' i j) ->
  (forall i j, (i < r)%nat -> (j < c)%nat -> B i j = B' i j) -> ip r c A B = ip r c A' B'.
Proof. intros HA HB. apply rsum_ext; intros i Hi. apply rsum_ext; intros j Hj. rewrite HA, HB; auto. Qed.

Lemma ip_sym r c A B : ip r c A B = ip r c B A.
Proof. apply rsum_ext; intros i Hi. apply rsum_ext; intros j Hj. ring. Qed.

Lemma mul_assoc n m A B C i j : mul n (mul m A B) C i j = mul m A (mul n B C) i j.
Proof.
  unfold mul.
  rewrite (rsum_ext n _ (fun k => rsum m (fun l => A i l * B l k * C k j))).
  2:{ intros k _. rewrite <- rsum_scal_r. reflexivity. }
  rewrite rsum_swap. apply rsum_ext. intros l _. rewrite <- rsum_scal. apply rsum_ext. intros; ring.
Qed.

Lemma mul_ext n A B A' B' i j : (forall k, (k < n)%nat -> A i k = A' i k) -> (forall k, (k < n)%nat -> B k j = B' k j) ->
  mul n A B i j = mul n A' B' i j.
Proof. intros H1 H2. apply rsum_ext. intros k Hk. rewrite H1, H2; auto. Qed.

Lemma tr_mul n A B i j : tr (mul n A B) i j = mul n (tr B) (tr A) i j.
Proof. unfold tr, mul. apply rsum_ext. intros; ring. Qed.

Lemma idm_l n A i j : (i < n)%nat -> mul n idm A i j = A i j.
Proof.
  intros Hi. unfold mul, idm. rewrite (rsum_ext n _ (fun k => if Nat.eqb i k then A k j else 0)).
  - rewrite (rsum_delta' n i (fun k => A k j)); auto.
  - intros k _. destruct (Nat.eqb i k); ring.
Qed.
Lemma idm_r n A i j : (j < n)%nat -> mul n A idm i j = A i j.
Proof.
  intros Hj. unfold mul, idm. rewrite (rsum_ext n _ (fun k => if Nat.eqb k j then A i k else 0)).
  - rewrite (rsum_delta n j (fun k => A i k)); auto.
  - intros k _. destruct (Nat.eqb k j); ring.
Qed.

Lemma orth_mul p q Y : orthonormal p q Y <-> eqn q (mul p (tr Y) Y) idm.
Proof.
  split; intros H b c Hb Hc; specialize (H b c Hb Hc); unfold mul, tr, idm in *; exact H.
Qed.

(** A square matrix with orthonormal columns has orthonormal rows. *)
Lemma orth_square n A : orthonormal n n A -> orthonormal n n (tr A).
Proof.
  intros H. apply (proj2 (orth_mul _ _ _)). apply (proj1 (orth_mul _ _ _)) in H.
  assert (S : forall y, exists z, forall i, (i < n)%nat -> y i = rsum n (fun k => A i k * z k)).
  { intros y. destruct (wide_kernel n (fun i k => if Nat.eqb k n then y i else A i k)) as (v & Nv & Kv).
    assert (Kv' : forall i, (i < n)%nat -> rsum n (fun k => A i k * v k) + y i * v n = 0).
    { intros i Hi. rewrite <- (Kv i Hi), rsum_S, Nat.eqb_refl. f_equal. apply rsum_ext.
      intros k Hk. destruct (Nat.eqb_spec k n); [lia|reflexivity]. }
    assert (vn : v n <> 0).
    { intros E. destruct Nv as (l & Hl & Nl). apply Nl.
      destruct (Nat.eq_dec l n) as [->|Nl']; auto. assert (Hl' : (l < n)%nat) by lia.
      assert (Q : forall i, (i < n)%nat -> rsum n (fun k => A i k * v k) = 0).
      { intros i Hi. specialize (Kv' i Hi). rewrite E in Kv'. lra. }
      transitivity (rsum n (fun k => idm l k * v k)).
      - unfold idm. rewrite (rsum_ext n _ (fun k => if Nat.eqb l k then v k else 0)) by (intros k _; destruct (Nat.eqb l k); ring).
        symmetry. apply (rsum_delta' n l v); auto.
      - rewrite (rsum_ext n _ (fun k => mul n (tr A) A l k * v k)) by (intros k Hk; f_equal; symmetry; apply H; auto).
        rewrite (rsum_ext n _ (fun k => rsum n (fun i => tr A l i * (A i k * v k)))).
        2:{ intros k _. unfold mul. rewrite <- rsum_scal_r. apply rsum_ext. intros; ring. }
        rewrite rsum_swap. apply rsum_zero'. intros i Hi. rewrite rsum_scal, Q by auto. ring. }
    exists (fun k => - v k / v n). intros i Hi. specialize (Kv' i Hi).
    rewrite (rsum_ext n _ (fun k => (- / v n) * (A i k * v k))) by (intros; field; auto).
    rewrite rsum_scal. apply Rmult_eq_reg_r with (v n); auto.
    replace (- / v n * rsum n (fun k => A i k * v k) * v n) with (- rsum n (fun k => A i k * v k)) by (field; auto). lra. }
  intros i j Hi Hj. destruct (S (fun k => idm k j)) as (z & Hz).
  change (mul n (tr (tr A)) (tr A) i j) with (mul n A (tr A) i j).
  rewrite <- (idm_r n (mul n A (tr A)) i j Hj).
  transitivity (mul n (mul n A (tr A)) (mul n A (fun k _ => z k)) i j).
  { apply rsum_ext. intros k Hk. f_equal. apply Hz; auto. }
  rewrite mul_assoc.
  transitivity (mul n A (fun k _ => z k) i j).
  - apply rsum_ext. intros k Hk. f_equal. rewrite <- mul_assoc.
    transitivity (mul n idm (fun k _ => z k) k j); [|apply idm_l; auto].
    apply rsum_ext. intros l Hl. f_equal. apply H; auto.
  - unfold mul. symmetry. apply Hz; auto.
Qed.

Lemma orth_det n A : orthonormal n n A -> det n A * det n A = 1.
Proof.
  intros H. apply (proj1 (orth_mul _ _ _)) in H. rewrite <- (det_idm n), <- (det_ext n _ _ H), det_mul, det_tr. reflexivity.
Qed.
Lemma orth_det_cases n A : orthonormal n n A -> det n A = 1 \/ det n A = -1.
Proof.
  intros H. apply orth_det in H.
  assert (E : (det n A - 1) * (det n A + 1) = 0) by lra.
  apply Rmult_integral in E. destruct E; [left|right]; lra.
Qed.

(** Products of matrices with orthonormal columns. *)
Lemma orth_prod p q n A B : orthonormal p q A -> orthonormal q n B -> orthonormal p n (mul q A B).
Proof.
  intros HA HB. apply (proj1 (orth_mul _ _ _)) in HA; apply (proj1 (orth_mul _ _ _)) in HB. apply (proj2 (orth_mul _ _ _)). intros i j Hi Hj.
  transitivity (mul p (mul q (tr B) (tr A)) (mul q A B) i j).
  { apply mul_ext; intros; auto. apply tr_mul. }
  rewrite mul_assoc. rewrite <- (HB i j Hi Hj). apply rsum_ext. intros k Hk. f_equal.
  rewrite <- mul_assoc. transitivity (mul q idm B k j); [|apply idm_l; auto].
  apply rsum_ext. intros l Hl. f_equal. apply HA; auto.
Qed.
Lemma orth_ext p q A B : (forall i j, (i < p)%nat -> (j < q)%nat -> A i j = B i j) -> orthonormal p q A -> orthonormal p q B.
Proof.
  intros E H b c Hb Hc. rewrite <- (H b c Hb Hc). apply rsum_ext. intros a Ha. rewrite !E; auto.
Qed.
Lemma orth_idm n : orthonormal n n idm.
Proof.
  intros b c Hb Hc. unfold idm. rewrite (rsum_ext n _ (fun a => if Nat.eqb a b then (if Nat.eqb a c then 1 else 0) else 0)).
  - rewrite (rsum_delta n b (fun a => if Nat.eqb a c then 1 else 0)); auto.
  - intros a _. destruct (Nat.eqb a b); ring.
Qed.

Lemma orth_norm p q A : orthonormal p q A -> ip p q A A = INR q.
Proof.
  intros H. unfold ip. rewrite rsum_swap. rewrite (rsum_ext q _ (fun _ => 1)).
  - rewrite rsum_const. ring.
  - intros j Hj. rewrite (H j j Hj Hj), Nat.eqb_refl. reflexivity.
Qed.

Lemma dist2_ip r c A B : dist2 r c A B = ip r c A A - 2 * ip r c A B + ip r c B B.
Proof.
  unfold dist2, ip, sq. rewrite <- rsum_scal, <- rsum_sub, <- rsum_add. apply rsum_ext. intros i _.
  rewrite <- rsum_scal, <- rsum_sub, <- rsum_add. apply rsum_ext. intros; ring.
Qed.
Lemma dist2_nonneg r c A B : 0 <= dist2 r c A B.
Proof. apply rsum_nonneg. intros. apply rsum_nonneg. intros. apply Rle_0_sqr. Qed.
Lemma dist2_zero r c A B : dist2 r c A B = 0 -> forall i j, (i < r)%nat -> (j < c)%nat -> A i j = B i j.
Proof.
  intros E i j Hi Hj. unfold dist2 in E.
  assert (E1 := rsum_nonneg_zero r _ (fun i _ => rsum_nonneg c _ (fun j _ => Rle_0_sqr (A i j - B i j))) E i Hi).
  assert (E2 := rsum_nonneg_zero c _ (fun j _ => Rle_0_sqr (A i j - B i j)) E1 j Hj).
  apply Rmult_integral in E2. lra.
Qed.

(** 2 <A,B> <= |A|^2 + |B|^2 *)
Lemma ip_bound r c A B : 2 * ip r c A B <= ip r c A A + ip r c B B.
Proof. pose proof (dist2_nonneg r c A B). rewrite dist2_ip in H. lra. Qed.

(** ** Inner product with a singular value decomposition *)
Lemma svd_ip r d k (M U V : mat) s Q :
  (forall i j, (i < r)%nat -> (j < d)%nat -> M i j = rsum k (fun l => U i l * s l * V j l)) ->
  ip r d M Q = rsum k (fun l => s l * rsum r (fun i => rsum d (fun j => U i l * Q i j * V j l))).
Proof.
  intros H. unfold ip.
  rewrite (rsum_ext r _ (fun i => rsum d (fun j => rsum k (fun l => s l * (U i l * Q i j * V j l))))).
  2:{ intros i Hi. apply rsum_ext. intros j Hj. rewrite H by auto. rewrite <- rsum_scal_r. apply rsum_ext. intros; ring. }
  rewrite (rsum_ext r _ (fun i => rsum k (fun l => rsum d (fun j => s l * (U i l * Q i j * V j l))))) by (intros; apply rsum_swap).
  rewrite rsum_swap. apply rsum_ext. intros l _. rewrite <- rsum_scal. apply rsum_ext. intros i _.
  rewrite <- rsum_scal. apply rsum_ext. intros; ring.
Qed.

(** |Q v|^2 = |v|^2 *)
Lemma orth_apply r d Q v : orthonormal r d Q ->
  rsum r (fun i => sq (rsum d (fun j => Q i j * v j))) = rsum d (fun j => sq (v j)).
Proof.
  intros H. unfold sq.
  rewrite (rsum_ext r _ (fun i => rsum d (fun j => rsum d (fun j' => v j * v j' * (Q i j * Q i j'))))).
  2:{ intros i _. rewrite <- rsum_scal_r. apply rsum_ext. intros j _. rewrite <- rsum_scal. apply rsum_ext. intros; ring. }
  rewrite rsum_swap. apply rsum_ext. intros j Hj. rewrite rsum_swap.
  rewrite (rsum_ext d _ (fun j' => if Nat.eqb j j' then v j * v j' else 0)).
  - rewrite (rsum_delta' d j (fun j' => v j * v j')); auto.
  - intros j' Hj'. rewrite rsum_scal, (H j j' Hj Hj'). destruct (Nat.eqb j j'); ring.
Qed.

(** u_l^T Q v_l <= 1 *)
Lemma svd_entry r d k U V Q l : orthonormal r k U -> orthonormal d k V -> orthonormal r d Q -> (l < k)%nat ->
  rsum r (fun i => rsum d (fun j => U i l * Q i j * V j l)) <= 1.
Proof.
  intros HU HV HQ Hl.
  rewrite (rsum_ext r _ (fun i => U i l * rsum d (fun j => Q i j * V j l))).
  2:{ intros i _. rewrite <- rsum_scal. apply rsum_ext. intros; ring. }
  set (w := fun i => rsum d (fun j => Q i j * V j l)).
  assert (A : rsum r (fun i => sq (U i l)) = 1).
  { unfold sq. rewrite (HU l l Hl Hl), Nat.eqb_refl. reflexivity. }
  assert (B : rsum r (fun i => sq (w i)) = 1).
  { unfold w. rewrite (orth_apply r d Q (fun j => V j l) HQ). unfold sq. rewrite (HV l l Hl Hl), Nat.eqb_refl. reflexivity. }
  assert (C : 0 <= rsum r (fun i => sq (U i l - w i))) by (apply rsum_nonneg; intros; apply Rle_0_sqr).
  rewrite (rsum_ext r _ (fun i => (sq (U i l) + sq (w i)) - 2 * (U i l * w i))) in C by (intros; unfold sq; ring).
  rewrite rsum_sub, rsum_add, rsum_scal, A, B in C. unfold w in C. lra.
Qed.

(** ** The trace of an orthogonal matrix of determinant -1 *)
Lemma eigen_minus n W : orthonormal n n W -> det n W = -1 ->
  exists v, nonzero n v /\ forall i, (i < n)%nat -> rsum n (fun k => W i k * v k) = - v i.
Proof.
  intros H D.
  assert (Z : det n (fun i j => W i j + idm i j) = 0).
  { pose proof (orth_square n W H) as H'. apply (proj1 (orth_mul _ _ _)) in H'.
    assert (E : eqn n (mul n W (fun i j => tr W i j + idm i j)) (fun i j => W i j + idm i j)).
    { intros i j Hi Hj. unfold mul. rewrite (rsum_ext n _ (fun k => W i k * tr W k j + W i k * idm k j)) by (intros; ring).
      rewrite rsum_add. change (mul n W (tr W) i j + mul n W idm i j = W i j + idm i j).
      rewrite (idm_r n W i j Hj). rewrite <- (H' i j Hi Hj). unfold mul, tr. lra. }
    apply det_ext in E. rewrite det_mul, D in E.
    rewrite <- (det_tr n (fun i j => W i j + idm i j)) in E at 1.
    rewrite <- (det_tr n (fun i j => W i j + idm i j)).
    rewrite (det_ext_all n (fun i j => tr W i j + idm i j) (tr (fun i j => W i j + idm i j))) in E.
    2:{ intros i j. unfold tr, idm. rewrite (Nat.eqb_sym i j). reflexivity. }
    lra. }
  destruct (det_zero_kernel n _ Z) as (v & Nv & Kv). exists v. split; auto.
  intros i Hi. specialize (Kv i Hi). rewrite (rsum_ext n _ (fun k => W i k * v k + idm i k * v k)) in Kv by (intros; ring).
  rewrite rsum_add in Kv. rewrite (rsum_ext n (fun k => idm i k * v k) (fun k => if Nat.eqb i k then v k else 0)) in Kv.
  2:{ intros k _. unfold idm. destruct (Nat.eqb i k); ring. }
  rewrite (rsum_delta' n i v Hi) in Kv. lra.
Qed.

Lemma trace_det_minus n W : orthonormal n n W -> det n W = -1 -> rsum n (fun i => W i i) <= INR n - 2.
Proof.
  intros H D. destruct (eigen_minus n W H D) as (v & (l & Hl & Nl) & Hv).
  set (s := rsum n (fun i => v i * v i)).
  assert (Sp : 0 < s) by (apply (rsum_sq_pos n v l); auto).
  set (P := fun i j => idm i j - v i * v j / s).
  assert (PW : forall i j, (i < n)%nat -> (j < n)%nat -> mul n W P i j = W i j + v i * v j / s).
  { intros i j Hi Hj. unfold mul, P.
    rewrite (rsum_ext n _ (fun k => W i k * idm k j - (W i k * v k) * (v j / s))) by (intros; field; lra).
    rewrite rsum_sub, rsum_scal_r, Hv by auto. change (rsum n (fun k => W i k * idm k j)) with (mul n W idm i j).
    rewrite idm_r by auto. field. lra. }
  assert (I1 : ip n n (mul n W P) (mul n W P) = ip n n P P).
  { unfold ip. rewrite rsum_swap. rewrite (rsum_swap n n (fun i j => P i j * P i j)). apply rsum_ext. intros j Hj.
    pose proof (orth_apply n n W (fun k => P k j) H) as E. unfold sq in E. exact E. }
  assert (PP : ip n n P P = INR n - 1).
  { unfold ip, P. rewrite (rsum_ext n _ (fun i => 1 - v i * v i / s)).
    - rewrite rsum_sub, rsum_const. unfold Rdiv. rewrite rsum_scal_r. fold s. field. lra.
    - intros i Hi.
      rewrite (rsum_ext n _ (fun j => (if Nat.eqb i j then 1 - 2 * (v i * v j / s) else 0) + (v i * v i / s / s) * (v j * v j))).
      + rewrite rsum_add, (rsum_delta' n i (fun j => 1 - 2 * (v i * v j / s))), rsum_scal by auto. fold s. field. lra.
      + intros j _. unfold idm. destruct (Nat.eqb i j); field; lra. }
  assert (T : ip n n (mul n W P) P = rsum n (fun i => W i i) + 1).
  { transitivity (ip n n (fun i j => W i j + v i * v j / s) P).
    { apply ip_ext; auto. }
    unfold ip. rewrite (rsum_ext n _ (fun i => W i i + v i * v i / s)).
    - rewrite rsum_add. unfold Rdiv. rewrite rsum_scal_r. fold s. field_simplify; lra.
    - intros i Hi. unfold P.
      rewrite (rsum_ext n _ (fun j => (if Nat.eqb i j then W i j + v i * v j / s else 0)
          - (W i j * v j) * (v i / s) - (v i * v i / s / s) * (v j * v j))).
      + rewrite !rsum_sub, (rsum_delta' n i (fun j => W i j + v i * v j / s)), rsum_scal_r, rsum_scal, Hv by auto.
        fold s. field. lra.
      + intros j _. unfold idm. destruct (Nat.eqb i j); field; lra. }
  pose proof (ip_bound n n (mul n W P) P) as B. rewrite I1, PP, T in B. lra.
Qed.

(** ** Closest points *)
Lemma svd_ip_le r d k M U V s Q :
  orthonormal r k U -> orthonormal d k V -> orthonormal r d Q -> (forall l, (l < k)%nat -> 0 <= s l) ->
  (forall i j, (i < r)%nat -> (j < d)%nat -> M i j = rsum k (fun l => U i l * s l * V j l)) ->
  ip r d M Q <= rsum k s.
Proof.
  intros HU HV HQ Hs HM. rewrite (svd_ip r d k M U V s Q HM). apply rsum_le. intros l Hl.
  pose proof (svd_entry r d k U V Q l HU HV HQ Hl). specialize (Hs l Hl). nra.
Qed.

Lemma svd_ip_signed r d k M U V s g :
  orthonormal r k U -> orthonormal d k V ->
  (forall i j, (i < r)%nat -> (j < d)%nat -> M i j = rsum k (fun l => U i l * s l * V j l)) ->
  ip r d M (mul k (fun i l => U i l * g l) (tr V)) = rsum k (fun l => s l * g l).
Proof.
  intros HU HV HM. rewrite (svd_ip r d k M U V s _ HM). apply rsum_ext. intros l Hl. f_equal. unfold mul, tr.
  (* sum_i sum_j U_il (sum_m U_im g_m V_jm) V_jl *)
  rewrite (rsum_ext r _ (fun i => U i l * (U i l * g l))).
  - rewrite (rsum_ext r _ (fun i => g l * (U i l * U i l))) by (intros; ring).
    rewrite rsum_scal, (HU l l Hl Hl), Nat.eqb_refl. ring.
  - intros i _.
    rewrite (rsum_ext d _ (fun j => rsum k (fun m => U i l * (U i m * g m) * (V j m * V j l)))).
    2:{ intros j _. rewrite Rmult_assoc, <- rsum_scal_r, <- rsum_scal. apply rsum_ext. intros; ring. }
    rewrite rsum_swap. rewrite (rsum_ext k _ (fun m => if Nat.eqb m l then U i l * (U i m * g m) else 0)).
    + rewrite (rsum_delta k l (fun m => U i l * (U i m * g m))); auto.
    + intros m Hm. rewrite rsum_scal, (HV m l Hm Hl). destruct (Nat.eqb m l); ring.
Qed.

Lemma scaled_orth r k U g : orthonormal r k U -> (forall l, (l < k)%nat -> g l * g l = 1) -> orthonormal r k (fun i l => U i l * g l).
Proof.
  intros H G b c Hb Hc. rewrite (rsum_ext r _ (fun a => g b * g c * (U a b * U a c))) by (intros; ring).
  rewrite rsum_scal, (H b c Hb Hc). destruct (Nat.eqb_spec b c); [subst|ring]. rewrite G by auto. ring.
Qed.

Theorem closest_stiefel r d M U V Q : is_svd r d d M U V ->
  stiefel r d (mmul U (mtr V)) /\
  (stiefel r d Q -> dist2 r d M (mmul U (mtr V)) <= dist2 r d M Q).
Proof.
  intros (U1 & U2 & V1 & V2 & HU & HV & s & Hs & _ & HM).
  assert (P : orthonormal r d (mmul U (mtr V))).
  { assert (E : orthonormal r d (mul d U (tr V))) by (apply (orth_prod r d d); auto; apply orth_square; auto).
    eapply orth_ext; [|exact E]. intros i j _ _. unfold mmul, mtr, mul, tr. simpl. rewrite U2. reflexivity. }
  split.
  { unfold stiefel. simpl. rewrite U1, V1. auto. }
  intros (_ & _ & HQ). rewrite !dist2_ip, (orth_norm r d (mmul U (mtr V)) P), (orth_norm r d Q HQ).
  pose proof (svd_ip_le r d d M U V s Q HU HV HQ Hs HM) as L.
  pose proof (svd_ip_signed r d d M U V s (fun _ => 1) HU HV HM) as E.
  assert (ip r d M (mmul U (mtr V)) = rsum d s); [|lra].
  rewrite <- (rsum_ext d (fun l => s l * 1) s) by (intros; ring). rewrite <- E.
  apply ip_ext; auto. intros i j Hi Hj. unfold mmul, mtr, mul, tr. simpl. rewrite U2. apply rsum_ext. intros; numr; ring.
Qed.

Lemma det_scale_last n U : det (S n) (fun i j => if Nat.eqb j n then U i j * -1 else U i j) = - det (S n) U.
Proof.
  pose proof (det_col_lin (S n) n U (fun i => U i n) (fun i => U i n) (-1) 0 (Nat.lt_succ_diag_r n)) as E.
  rewrite (alt_set_same (S n) (det (S n)) (det_alt (S n)) n U) in E by lia.
  rewrite <- (det_ext_all (S n) (setcol n (fun i => -1 * U i n + 0 * U i n) U)); [lra|].
  intros i j. unfold setcol. destruct (Nat.eqb_spec j n); [subst; ring|reflexivity].
Qed.

Theorem closest_rotation d M U V Q : (0 < d)%nat -> is_svd d d d M U V ->
  let P := if Rlt_dec 0 (det d U * det d V) then mmul U (mtr V)
           else mmul (mkMx (mrows U) (mcols U) (fun i j => if Nat.eqb j (mcols U - 1) then U i j * (- 1) else U i j)) (mtr V) in
  rotation d P /\ (rotation d Q -> dist2 d d M P <= dist2 d d M Q).
Proof.
  intros Hd (U1 & U2 & V1 & V2 & HU & HV & s & Hs & Ho & HM) P.
  destruct d as [|n]; [lia|]. set (d := S n) in *.
  set (g := fun l : nat => if Rlt_dec 0 (det d U * det d V) then 1 else if Nat.eqb l n then -1 else 1).
  assert (G2 : forall l, (l < d)%nat -> g l * g l = 1).
  { intros l _. unfold g. destruct (Rlt_dec _ _); [lra|]. destruct (Nat.eqb l n); lra. }
  assert (PE : forall i j, P i j = mul d (fun i l => U i l * g l) (tr V) i j).
  { intros i j. unfold P, g, mul, tr. destruct (Rlt_dec _ _); cbn [Num.mat mcols mrows mmul mtr nmul NumR]; rewrite U2.
    - apply rsum_ext. intros; numr; ring.
    - apply rsum_ext. intros l _. replace (d - 1)%nat with n by lia. numr. destruct (Nat.eqb l n); ring. }
  assert (OU := scaled_orth d d U g HU G2).
  assert (OV := orth_square d V HV).
  assert (OP : orthonormal d d P).
  { eapply orth_ext; [|apply (orth_prod d d d _ _ OU OV)]. intros i j _ _. symmetry. apply PE. }
  assert (DU : det d U = 1 \/ det d U = -1) by (apply orth_det_cases; auto).
  assert (DV : det d V = 1 \/ det d V = -1) by (apply orth_det_cases; auto).
  assert (DP : det d P = 1).
  { rewrite (det_ext_all d P _ PE), det_mul, det_tr.
    assert (E : det d (fun i l => U i l * g l) = if Rlt_dec 0 (det d U * det d V) then det d U else - det d U).
    { unfold g. destruct (Rlt_dec _ _).
      - apply det_ext_all. intros; ring.
      - unfold d at 2. rewrite <- (det_scale_last n U). apply det_ext_all. intros i j. destruct (Nat.eqb j n); ring. }
    rewrite E. destruct (Rlt_dec _ _); destruct DU as [E1|E1]; destruct DV as [E2|E2]; rewrite ?E1, ?E2 in *; lra. }
  split.
  { unfold rotation, P. destruct (Rlt_dec _ _); simpl; rewrite U1, V1; repeat split; auto;
      unfold P in *; destruct (Rlt_dec _ _); auto; lra. }
  intros (_ & _ & HQ & DQ). rewrite !dist2_ip, (orth_norm d d P OP), (orth_norm d d Q HQ).
  assert (EP : ip d d M P = rsum d (fun l => s l * g l)).
  { rewrite <- (svd_ip_signed d d d M U V s g HU HV HM). apply ip_ext; auto. }
  assert (ip d d M Q <= ip d d M P); [|lra]. rewrite EP.
  unfold g. destruct (Rlt_dec 0 (det d U * det d V)) as [Lp|Ln].
  - rewrite (rsum_ext d (fun l => s l * 1) s) by (intros; ring). apply (svd_ip_le d d d M U V s Q); auto.
  - rewrite (svd_ip d d d M U V s Q HM).
    (* W = U^T Q V is orthogonal with determinant -1 *)
    set (W := mul d (tr U) (mul d Q V)).
    assert (We : forall l, rsum d (fun i => rsum d (fun j => U i l * Q i j * V j l)) = W l l).
    { intros l. unfold W, mul, tr. apply rsum_ext. intros i _. rewrite <- rsum_scal. apply rsum_ext. intros; ring. }
    assert (OW : orthonormal d d W).
    { apply (orth_prod d d d); [apply orth_square; auto|]. apply (orth_prod d d d); auto. }
    assert (DW : det d W = -1).
    { unfold W. rewrite !det_mul, det_tr, DQ. destruct DU as [E1|E1], DV as [E2|E2]; rewrite E1, E2 in *; lra. }
    pose proof (trace_det_minus d W OW DW) as T.
    set (m := s n).
    rewrite (rsum_ext d _ (fun l => (s l - m) * W l l + m * W l l)) by (intros l _; rewrite We; ring).
    rewrite rsum_add, rsum_scal.
    rewrite (rsum_ext d (fun l => s l * (if Nat.eqb l n then -1 else 1)) (fun l => (s l - m) + m * (if Nat.eqb l n then -1 else 1))).
    2:{ intros l Hl. unfold m. destruct (Nat.eqb_spec l n); [subst|]; ring. }
    rewrite rsum_add, rsum_scal.
    assert (A : rsum d (fun l => (s l - m) * W l l) <= rsum d (fun l => s l - m)).
    { apply rsum_le. intros l Hl. assert (0 <= s l - m). { unfold m. assert (s n <= s l) by (apply Ho; lia). lra. }
      assert (W l l <= 1). { rewrite <- We. apply (svd_entry d d d U V Q l); auto. } nra. }
    assert (B : m * rsum d (fun l => W l l) <= m * rsum d (fun l => if Nat.eqb l n then -1 else 1)).
    { apply Rmult_le_compat_l; [unfold m; apply Hs; lia|].
      rewrite (rsum_ext d (fun l => if Nat.eqb l n then -1 else 1) (fun l => 1 + (if Nat.eqb l n then -2 else 0)))
        by (intros l _; destruct (Nat.eqb l n); ring).
      rewrite rsum_add, rsum_const, (rsum_delta d n (fun _ => -2)) by lia. lra. }
    lra.
Qed.

(** Weighted sums of squared distances. *)
Lemma spread_expand r c ws Ms A : length ws = length Ms ->
  spread r c ws Ms A = rsumL (fun w => w) ws * ip r c A A
    - 2 * ip r c A (fun i j => nsumL (fun p : R * Mx R => fst p * snd p i j) (combine ws Ms))
    + nsumL (fun p : R * Mx R => fst p * ip r c (snd p) (snd p)) (combine ws Ms).
Proof.
  unfold spread. revert Ms. induction ws as [|w ws IH]; intros [|M Ms] L; try discriminate.
  - simpl. rewrite !rsumL_nil. unfold ip at 2. rewrite rsum_zero'; [ring|]. intros i _. apply rsum_zero'. intros j _.
    rewrite rsumL_nil. ring.
  - simpl combine. rewrite !rsumL_cons, IH by (simpl in L; lia). cbn [fst snd]. rewrite dist2_ip.
    assert (E : ip r c A (fun i j => nsumL (fun p : R * Mx R => fst p * snd p i j) ((w, M) :: combine ws Ms)) =
      w * ip r c A M + ip r c A (fun i j => nsumL (fun p : R * Mx R => fst p * snd p i j) (combine ws Ms))).
    { unfold ip. rewrite <- rsum_scal, <- rsum_add. apply rsum_ext. intros i _.
      rewrite <- rsum_scal, <- rsum_add. apply rsum_ext. intros j _. rewrite rsumL_cons. cbn [fst snd]. ring. }
    rewrite E. ring.
Qed.
