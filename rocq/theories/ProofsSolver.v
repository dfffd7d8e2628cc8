(** Proofs about averaging and projections (C20-C24). *)
From Coq Require Import List NArith ZArith Bool Arith Lia Reals Lra Psatz Sorted.
From Verif Require Import Base Num RSum Det ModelTypes ModelRobust ModelPoses ModelProblem ModelSolver
  SpecCost SpecRobust SpecSolver MatR ProofsPoseGraph ProofsRobust.
Import ListNotations.
Local Open Scope R_scope.

Lemma has_size_sized M r c : has_size M r c = true <-> sized r c M.
Proof. unfold has_size, sized. rewrite andb_true_iff, !Nat.eqb_eq. tauto. Qed.
Lemma same_size_sized (A B : Mx R) : same_size A B = true <-> sized (mrows A) (mcols A) B.
Proof. unfold same_size, sized. rewrite andb_true_iff, !Nat.eqb_eq. intuition congruence. Qed.
Lemma forallb_Forall {A} (p : A -> bool) (P : A -> Prop) l : (forall x, p x = true <-> P x) -> forallb p l = true <-> Forall P l.
Proof.
  intros E. rewrite forallb_forall, Forall_forall. split; intros H x Hx; apply E, H, Hx.
Qed.

Lemma or_default_in_force n v x : or_default n v (repeat x n) = in_force n v x.
Proof. unfold or_default, in_force. destruct (Nat.eqb _ _); auto. Qed.
Lemma in_force_length n v x : length (in_force n v x) = n.
Proof. unfold in_force. destruct (Nat.eqb_spec (length v) n); auto. apply repeat_length. Qed.
Lemma in_force_pos n v x : Forall (fun y => 0 < y) v -> 0 < x -> Forall (fun y => 0 < y) (in_force n v x).
Proof.
  intros Hv Hx. unfold in_force. destruct (Nat.eqb _ _); auto. apply Forall_forall. intros y Hy. apply repeat_spec in Hy. lra.
Qed.
Lemma in_force_self n v x : length v = n -> in_force n v x = v.
Proof. intros. unfold in_force. rewrite (proj2 (Nat.eqb_eq _ _)); auto. Qed.

Lemma wsum_fold l : forall s, sized (mrows s) (mcols s) (fold_left (fun s p => madd s (mscal (fst p) (snd p))) l s) /\
  forall i j, fold_left (fun s p => madd s (mscal (fst p) (snd p))) l s i j =
  s i j + nsumL (fun p : R * Mx R => fst p * snd p i j) l.
Proof.
  induction l as [|p l IH]; intros s; simpl fold_left.
  - split; [split; auto|]. intros. rewrite rsumL_nil. ring.
  - destruct (IH (madd s (mscal (fst p) (snd p)))) as [[A B] C]. split; [split; auto|].
    intros i j. rewrite C, rsumL_cons. simpl. ring.
Qed.

Lemma fold_sum l : forall s, fold_left (fun w x => w + x) l s = s + rsumL (fun x => x) l.
Proof. induction l as [|a l IH]; intros s; simpl fold_left; [rewrite rsumL_nil; ring|]. rewrite IH, rsumL_cons. ring. Qed.

Lemma sum_pos l : l <> [] -> Forall (fun y => 0 < y) l -> 0 < rsumL (fun x => x) l.
Proof.
  intros N H. destruct l as [|a l]; [congruence|]. rewrite rsumL_cons. inversion H; subst.
  assert (0 <= rsumL (fun x => x) l). { apply rsumL_nonneg. intros x Hx. rewrite Forall_forall in *. specialize (H3 x Hx). lra. }
  lra.
Qed.

(** ** C20 *)
Theorem translation_average : forall d tVec tau, tVec <> [] -> Forall (sized d 1) tVec -> Forall (fun y => 0 < y) tau ->
  exists t, singleTranslationAveraging tVec tau = Ok t /\ sized d 1 t /\
    forall x, let f := spread d 1 (in_force (length tVec) tau 1) tVec in
      f t <= f x /\ (f x <= f t -> forall i, (i < d)%nat -> x i O = t i O).
Proof.
  intros d tVec tau N HS HP. unfold singleTranslationAveraging.
  destruct tVec as [|t0 tl]; [congruence|]. set (tVec := t0 :: tl) in *.
  assert (D0 : mrows t0 = d) by (apply Forall_inv in HS; apply HS).
  rewrite D0. unfold ones. change (@n1 R NumR) with 1. rewrite or_default_in_force.
  assert (Q : forallb (fun t => has_size t d 1) tVec = true).
  { apply (forallb_Forall _ (sized d 1)); auto. intros; apply has_size_sized. }
  rewrite Q. unfold require. eexists; split; [reflexivity|]. split; [split; auto|].
  set (ws := in_force (length tVec) tau 1).
  assert (L : length ws = length tVec) by apply in_force_length.
  assert (W : 0 < rsumL (fun x => x) ws).
  { apply sum_pos; [|apply in_force_pos; auto; lra]. intros E. rewrite E in L. discriminate. }
  set (t := mkMx d 1 _).
  intros x. cbv zeta. set (f := spread d 1 ws tVec).
  set (w := rsumL (fun x => x) ws) in *.
  assert (T : forall i j, t i j = wsum ws tVec i j / w).
  { intros i j. unfold t. cbn [Num.mat]. rewrite (proj2 (wsum_fold _ _)). rewrite fold_sum.
    unfold wsum. numr. simpl mzero. cbn [Num.mat mzero]. fold w. numr. rewrite !Rplus_0_l. reflexivity. }
  assert (E : forall a, f a = f t + w * dist2 d 1 a t).
  { intros a. unfold f. rewrite !spread_expand by auto. fold w. fold (wsum ws tVec).
    rewrite (dist2_ip d 1 a t).
    assert (E1 : forall b, ip d 1 b (wsum ws tVec) = w * ip d 1 b t).
    { intros b. unfold ip. rewrite <- rsum_scal. apply rsum_ext. intros i _. rewrite <- rsum_scal. apply rsum_ext. intros j _.
      rewrite T. field. lra. }
    rewrite !E1. ring. }
  pose proof (dist2_nonneg d 1 x t) as DN. rewrite (E x). split; [nra|].
  intros Le i Hi. apply (dist2_zero d 1); auto. nra.
Qed.

Theorem translation_average_default : forall tVec tau, length tau <> length tVec ->
  singleTranslationAveraging tVec tau = singleTranslationAveraging tVec (repeat 1 (length tVec)).
Proof.
  intros tVec tau H. unfold singleTranslationAveraging, or_default. destruct tVec; auto.
  rewrite (proj2 (Nat.eqb_neq _ _) H), repeat_length, Nat.eqb_refl. reflexivity.
Qed.

(** ** C21, C22 *)
Theorem rotation_projection : forall svd determinant d M Q,
  svd_at svd d d M ->
  (forall A, mrows A = d -> mcols A = d -> determinant A = det d A) ->
  rotation d (projectToRotationGroup svd determinant M) /\
  (rotation d Q -> dist2 d d M (projectToRotationGroup svd determinant M) <= dist2 d d M Q).
Proof.
  intros svd dt d M Q Hs Hd. unfold svd_at in Hs. unfold projectToRotationGroup.
  destruct (svd M) as [U V]; simpl in Hs. pose proof Hs as (U1 & U2 & V1 & V2 & _).
  rewrite (Hd U), (Hd V) by auto.
  destruct (Nat.eq_dec d 0) as [->|Nd].
  { numr. simpl det. split.
    - unfold rotation. destruct (Rlt_dec _ _); simpl; rewrite U1, V1; repeat split; auto; intros ? ? Hb; inversion Hb.
    - intros _. apply Rle_refl. }
  pose proof (closest_rotation d M U V Q ltac:(lia) Hs) as C. cbv zeta in C.
  numr. destruct (Rlt_dec 0 (det d U * det d V)); exact C.
Qed.

Lemma svd_ext svd r d A B : sized r d A -> mx_eq B A -> svd_at svd r d B ->
  is_svd r d d A (fst (svd B)) (snd (svd B)).
Proof.
  intros [R1 R2] (E1 & E2 & E3) (U1 & U2 & V1 & V2 & HU & HV & s & H1 & H2 & H3).
  repeat (split; auto). exists s. repeat (split; auto). intros i j Hi Hj. rewrite <- H3 by auto. symmetry. apply E3; congruence.
Qed.

Lemma dist2_ext r c A A' B B' : (forall i j, (i < r)%nat -> (j < c)%nat -> A i j = A' i j) ->
  (forall i j, (i < r)%nat -> (j < c)%nat -> B i j = B' i j) -> dist2 r c A B = dist2 r c A' B'.
Proof. intros HA HB. apply rsum_ext; intros i Hi. apply rsum_ext; intros j Hj. rewrite HA, HB; auto. Qed.

Theorem rotation_average : forall svd determinant d RVec kappa, RVec <> [] -> Forall (sized d d) RVec ->
  (forall M, mx_eq M (mkMx d d (wsum (in_force (length RVec) kappa 1) RVec)) -> svd_at svd d d M) ->
  (forall A, mrows A = d -> mcols A = d -> determinant A = det d A) ->
  exists Q, singleRotationAveraging svd determinant RVec kappa = Ok Q /\ rotation d Q /\
    forall Q', rotation d Q' ->
      spread d d (in_force (length RVec) kappa 1) RVec Q <= spread d d (in_force (length RVec) kappa 1) RVec Q'.
Proof.
  intros svd dt d RVec kappa N HS Hsvd Hd. unfold singleRotationAveraging.
  destruct RVec as [|R0 rl]; [congruence|]. set (RVec := R0 :: rl) in *.
  assert (D0 : mrows R0 = d) by (apply Forall_inv in HS; apply HS).
  rewrite D0. unfold ones. change (@n1 R NumR) with 1. rewrite or_default_in_force.
  assert (Q : forallb (fun t => has_size t d d) RVec = true).
  { apply (forallb_Forall _ (sized d d)); auto. intros; apply has_size_sized. }
  rewrite Q. unfold require. clear Q.
  set (ws := in_force (length RVec) kappa 1) in *.
  assert (L : length ws = length RVec) by apply in_force_length.
  set (M := fold_left _ _ _).
  assert (ME : mx_eq M (mkMx d d (wsum ws RVec))).
  { unfold M. destruct (wsum_fold (combine ws RVec) (mzero d d)) as [[A B] C].
    split; [|split]; [rewrite A; reflexivity|rewrite B; reflexivity|]. intros i j _ _. rewrite C. unfold wsum. simpl. ring. }
  assert (P := fun Q => rotation_projection svd dt d M Q (Hsvd M ME) Hd).
  eexists; split; [reflexivity|]. split; [apply (P (mzero d d))|].
  intros Q' HQ'. destruct (P Q') as [HP HL]. specialize (HL HQ').
  set (Q := projectToRotationGroup svd dt M) in *.
  rewrite !spread_expand by auto. rewrite !dist2_ip in HL.
  destruct HP as (_ & _ & OQ & _), HQ' as (_ & _ & OQ' & _).
  rewrite (orth_norm d d Q OQ), (orth_norm d d Q' OQ') in *.
  rewrite (ip_sym d d M Q), (ip_sym d d M Q') in HL.
  assert (E : forall B, ip d d B M = ip d d B (wsum ws RVec)).
  { intros B. apply ip_ext; auto. intros i j Hi Hj. destruct ME as (A1 & A2 & A3). apply A3; [rewrite A1|rewrite A2]; auto. }
  rewrite !E in HL. fold (wsum ws RVec). lra.
Qed.

(** ** C22 *)
Theorem stiefel_projection : forall svd r d M, sized r d M -> (d <= r)%nat -> svd_at svd r d M ->
  exists Y, projectToStiefelManifold svd M = Ok Y /\ stiefel r d Y /\
    (forall Y', stiefel r d Y' -> dist2 r d M Y <= dist2 r d M Y') /\
    (orthonormal r d M -> mx_eq Y M).
Proof.
  intros svd r d M [S1 S2] Hd Hs. unfold projectToStiefelManifold. rewrite S1, S2, (proj2 (Nat.leb_le _ _) Hd). unfold check.
  unfold svd_at in Hs. destruct (svd M) as [U V]; simpl in Hs. eexists; split; [reflexivity|].
  assert (C := fun Q => closest_stiefel r d M U V Q Hs).
  destruct (C M) as [C1 _]. split; auto. split; [intros Y' HY; apply (C Y'); auto|].
  intros O. destruct (C M) as [_ C2]. assert (HM : stiefel r d M) by (split; auto).
  specialize (C2 HM). assert (Z : dist2 r d M M = 0).
  { apply rsum_zero'. intros; apply rsum_zero'. intros. unfold sq. ring. }
  pose proof (dist2_nonneg r d M (mmul U (mtr V))) as DN.
  destruct C1 as (A1 & A2 & _). split; [congruence|]. split; [congruence|].
  intros i j Hi Hj. symmetry. apply (dist2_zero r d); [lra|rewrite <- A1|rewrite <- A2]; auto.
Qed.

Theorem stiefel_projection_wide : forall svd (M : Mx R), (mrows M < mcols M)%nat -> projectToStiefelManifold svd M = Abort.
Proof. intros svd M Hd. unfold projectToStiefelManifold. rewrite (proj2 (Nat.leb_gt _ _) Hd). reflexivity. Qed.

(** Rotation block and translation column of pose i. *)
Lemma setblock_in (X B : Mx R) j0 i c : (i < mrows B)%nat -> (c < mcols B)%nat -> msetblock X 0 j0 B i (j0 + c)%nat = B i c.
Proof.
  intros Hi Hc. simpl. rewrite (proj2 (Nat.ltb_lt _ _)) by lia. rewrite (proj2 (Nat.leb_le _ _)) by lia.
  rewrite (proj2 (Nat.ltb_lt _ _)) by lia. simpl. rewrite Nat.sub_0_r. f_equal. lia.
Qed.
Lemma setblock_out (X B : Mx R) j0 i j : (j < j0 \/ j0 + mcols B <= j)%nat -> msetblock X 0 j0 B i j = X i j.
Proof.
  intros H. simpl. destruct H as [H|H].
  - rewrite (proj2 (Nat.leb_gt j0 j)) by lia. rewrite andb_false_r. reflexivity.
  - rewrite (proj2 (Nat.ltb_ge j (j0 + mcols B))) by lia. rewrite !andb_false_r. reflexivity.
Qed.

Lemma blk_lt i j d c c' : (c < d + 1)%nat -> (c' < d + 1)%nat -> (i * (d + 1) + c = j * (d + 1) + c')%nat -> i = j /\ c = c'.
Proof.
  intros Hc Hc' E. assert (i = j).
  { destruct (lt_eq_lt_dec i j) as [[L|E']|L]; auto; nia. }
  subst. lia.
Qed.

Lemma manifold_loop svd r d n M : sized r ((d + 1) * n) M -> (d <= r)%nat ->
  (forall i B, (i < n)%nat -> mx_eq B (mblock M 0 (i * (d + 1)) r d) -> svd_at svd r d B) ->
  forall k, (k <= n)%nat ->
  exists X, foldM (fun X i =>
      bind (projectToStiefelManifold svd (mblock X 0 (i * (d + 1)) r d)) (fun Y =>
      require (has_size Y r d) (Ok (msetblock X 0 (i * (d + 1)) Y)))) M (seq 0 k) = Ok X /\
    sized r ((d + 1) * n) X /\
    (forall i, (i < k)%nat -> let B := mblock M 0 (i * (d + 1)) r d in let Y := mblock X 0 (i * (d + 1)) r d in
       stiefel r d Y /\ (forall Y', stiefel r d Y' -> dist2 r d B Y <= dist2 r d B Y') /\ (orthonormal r d B -> mx_eq Y B)) /\
    (forall a j, (k * (d + 1) <= j)%nat -> X a j = M a j) /\
    (forall a i, (i < k)%nat -> X a (i * (d + 1) + d)%nat = M a (i * (d + 1) + d)%nat).
Proof.
  intros HM Hd Hsvd. induction k as [|k IH]; intros Hk.
  - exists M. repeat (split; auto); intros; lia.
  - destruct (IH ltac:(lia)) as (X & EX & SX & HX & TX & UX).
    rewrite seq_S, foldM_app, EX. cbn [bind foldM Nat.add].
    set (B := mblock X 0 (k * (d + 1)) r d).
    assert (EB : mx_eq B (mblock M 0 (k * (d + 1)) r d)).
    { split; [reflexivity|]. split; [reflexivity|]. intros a c _ _. simpl. apply TX. lia. }
    destruct (stiefel_projection svd r d B (conj eq_refl eq_refl) Hd (Hsvd k B ltac:(lia) EB)) as (Y & EY & SY & CY & IY).
    rewrite EY. cbn [bind]. pose proof SY as (Y1 & Y2 & OY).
    rewrite (proj2 (has_size_sized Y r d) (conj Y1 Y2)). cbn [require bind].
    exists (msetblock X 0 (k * (d + 1)) Y). split; [reflexivity|]. split; [split; apply SX|].
    assert (New : forall a c, (a < r)%nat -> (c < d)%nat -> msetblock X 0 (k * (d + 1)) Y a (k * (d + 1) + c)%nat = Y a c).
    { intros. apply setblock_in; lia. }
    assert (Old : forall a j, (j < k * (d + 1) \/ k * (d + 1) + d <= j)%nat -> msetblock X 0 (k * (d + 1)) Y a j = X a j).
    { intros. apply setblock_out; lia. }
    split; [|split].
    + intros i Hi. cbv zeta. set (B' := mblock M 0 (i * (d + 1)) r d). set (Y'' := mblock (msetblock X 0 (k * (d + 1)) Y) 0 (i * (d + 1)) r d). destruct (Nat.eq_dec i k) as [->|Ni].
      * assert (EYY : mx_eq Y'' Y).
        { split; [symmetry; auto|]. split; [symmetry; auto|]. intros a c Ha Hc. apply (New a c); auto. }
        assert (EE : forall a c, (a < r)%nat -> (c < d)%nat -> Y'' a c = Y a c) by (intros; apply EYY; auto).
        assert (BB : forall a c, (a < r)%nat -> (c < d)%nat -> B a c = B' a c) by (intros; apply EB; auto).
        split; [|split].
        { split; [reflexivity|]. split; [reflexivity|]. eapply orth_ext; [|exact OY]. intros; symmetry; auto. }
        { intros Y' HY'. specialize (CY Y' HY'). rewrite (dist2_ext r d B' B Y'' Y), (dist2_ext r d B' B Y' Y'); auto; intros; symmetry; auto. }
        { intros OB. assert (OB' : orthonormal r d B) by (eapply orth_ext; [|exact OB]; intros; symmetry; auto).
          destruct (IY OB') as (I1 & I2 & I3). split; [reflexivity|]. split; [reflexivity|]. intros a c Ha Hc.
          rewrite EE by auto. rewrite I3 by (rewrite ?Y1, ?Y2; auto). apply BB; auto. }
      * assert (Hik : (i < k)%nat) by lia. destruct (HX i Hik) as (P1 & P2 & P3).
        assert (EE : forall a c, (a < r)%nat -> (c < d)%nat -> Y'' a c = mblock X 0 (i * (d + 1)) r d a c).
        { intros a c Ha Hc. apply Old. left. nia. }
        split; [|split].
        { split; [reflexivity|]. split; [reflexivity|]. eapply orth_ext; [|apply P1]. intros; symmetry; auto. }
        { intros Y' HY'. rewrite (dist2_ext r d B' B' Y'' (mblock X 0 (i * (d + 1)) r d)); auto. }
        { intros OB. destruct (P3 OB) as (I1 & I2 & I3). split; [reflexivity|]. split; [reflexivity|].
          intros a c Ha Hc. rewrite EE by auto. apply I3; auto. }
    + intros a j Hj. rewrite Old by lia. apply TX. lia.
    + intros a i Hi. destruct (Nat.eq_dec i k) as [->|Ni].
      * rewrite Old by lia. apply TX. lia.
      * rewrite Old by (left; nia). apply UX. lia.
Qed.

Theorem manifold_projection : forall svd r d n M, sized r ((d + 1) * n) M -> (d <= r)%nat ->
  (forall i B, (i < n)%nat -> mx_eq B (mblock M 0 (i * (d + 1)) r d) -> svd_at svd r d B) ->
  exists X, manifold_project svd r d n M = Ok X /\ sized r ((d + 1) * n) X /\
    (forall i, (i < n)%nat -> let B := mblock M 0 (i * (d + 1)) r d in let Y := mblock X 0 (i * (d + 1)) r d in
       stiefel r d Y /\ forall Y', stiefel r d Y' -> dist2 r d B Y <= dist2 r d B Y') /\
    (forall i a, (i < n)%nat -> X a (i * (d + 1) + d)%nat = M a (i * (d + 1) + d)%nat) /\
    ((forall i, (i < n)%nat -> orthonormal r d (mblock M 0 (i * (d + 1)) r d)) -> mx_eq X M).
Proof.
  intros svd r d n M HM Hd Hsvd. destruct (manifold_loop svd r d n M HM Hd Hsvd n (le_n n)) as (X & EX & SX & HX & TX & UX).
  exists X. split.
  { unfold manifold_project. destruct HM as [M1 M2]. rewrite M1, M2, !Nat.eqb_refl. unfold check. exact EX. }
  split; auto. split; [intros i Hi; destruct (HX i Hi) as (A & B & _); split; auto|].
  split; [intros; apply UX; auto|].
  intros Of. destruct HM as [M1 M2], SX as [X1 X2]. split; [congruence|]. split; [congruence|].
  intros a j Ha Hj. rewrite X1 in Ha. rewrite X2 in Hj.
  assert (Ej : (j = (j / (d + 1)) * (d + 1) + j mod (d + 1))%nat) by (rewrite Nat.mul_comm; apply Nat.div_mod; lia).
  set (i := (j / (d + 1))%nat) in *. set (c := (j mod (d + 1))%nat) in *.
  assert (Hi : (i < n)%nat) by (unfold i; apply Nat.div_lt_upper_bound; lia).
  assert (Hc : (c < d + 1)%nat) by (unfold c; apply Nat.mod_upper_bound; lia).
  destruct (Nat.eq_dec c d) as [Ec|Nc].
  - rewrite Ej, Ec. apply UX; auto.
  - destruct (HX i Hi) as (_ & _ & P3). destruct (P3 (Of i Hi)) as (_ & _ & P4).
    specialize (P4 a c Ha ltac:(simpl; lia)). simpl in P4. rewrite Ej. exact P4.
Qed.
