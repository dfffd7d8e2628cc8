(** Proofs about [errorThresholdAtQuantile]. *)
From Coq Require Import NArith ZArith Bool Reals Lra Lia Ranalysis Rpower.
From Verif Require Import Base Num ModelRobust SpecQuantile.
Local Open Scope R_scope.

Definition F6 (x : R) : R := 1 - exp (- (x / 2)) * (1 + x / 2 + x ^ 2 / 8).
Lemma F6_deriv x : derivable_pt_lim F6 x (chi2_density6 x).
Proof.
  assert (E : derivable_pt_lim (fun x => exp (- (x / 2))) x (exp (- (x / 2)) * - (1 / 2))).
  { apply (derivable_pt_lim_comp (fun x => - (x / 2)) exp); [|apply derivable_pt_lim_exp].
    replace (- (1 / 2)) with (- (1 * / 2 + x * 0)) by lra. apply derivable_pt_lim_opp.
    apply (derivable_pt_lim_mult (fun x => x) (fun _ => / 2)); [apply derivable_pt_lim_id|apply derivable_pt_lim_const]. }
  assert (P : derivable_pt_lim (fun x => 1 + x / 2 + x ^ 2 / 8) x (0 + 1 / 2 + (2 * x) / 8)).
  { apply (derivable_pt_lim_plus (fun x => 1 + x / 2) (fun x => x ^ 2 / 8)); [apply (derivable_pt_lim_plus (fun _ => 1) (fun x => x / 2)); [apply derivable_pt_lim_const|]|].
    - replace (1 / 2) with (1 * / 2 + x * 0) by lra. apply (derivable_pt_lim_mult (fun x => x) (fun _ => / 2)); [apply derivable_pt_lim_id|apply derivable_pt_lim_const].
    - replace (2 * x / 8) with ((2 * x) * / 8 + x ^ 2 * 0) by lra. apply (derivable_pt_lim_mult (fun x => x ^ 2) (fun _ => / 8)); [|apply derivable_pt_lim_const].
      replace (2 * x) with (INR 2 * x ^ pred 2) by (cbn; lra). apply derivable_pt_lim_pow. }
  replace (chi2_density6 x) with (0 - (exp (- (x / 2)) * - (1 / 2) * (1 + x / 2 + x ^ 2 / 8) + exp (- (x / 2)) * (0 + 1 / 2 + 2 * x / 8))).
  2:{ unfold chi2_density6. field. }
  apply (derivable_pt_lim_minus (fun _ => 1) (fun x => exp (- (x / 2)) * (1 + x / 2 + x ^ 2 / 8))); [apply derivable_pt_lim_const|].
  exact (derivable_pt_lim_mult (fun x => exp (- (x / 2))) (fun x => 1 + x / 2 + x ^ 2 / 8) x _ _ E P).
Qed.
Definition F6_der : derivable F6 := fun x => exist _ _ (F6_deriv x).
Lemma density_cont : continuity chi2_density6.
Proof.
  intros x. apply derivable_continuous_pt. unfold chi2_density6. reg.
Qed.
Lemma F6_cont : continuity (derive F6 F6_der).
Proof. intros x. exact (density_cont x). Qed.
Definition C6 : C1_fun := mkC1 F6_cont.
Lemma F6_0 : F6 0 = 0.
Proof. unfold F6. replace (- (0 / 2)) with 0 by lra. rewrite exp_0. lra. Qed.
Lemma mass_F6 x (pr : Riemann_integrable chi2_density6 0 x) : RiemannInt pr = F6 x.
Proof.
  assert (pr' : Riemann_integrable (derive C6 (diff0 C6)) 0 x) by exact pr.
  transitivity (RiemannInt pr'); [apply RiemannInt_P5|]. rewrite FTC_Riemann. cbn [c1 C6]. rewrite F6_0. lra.
Qed.
Lemma mass_iff x q : 0 <= x -> (mass_upto x q <-> F6 x = q).
Proof.
  intros Hx. split; [intros (pr & <-); symmetry; apply mass_F6|]. intros <-.
  assert (pr : Riemann_integrable chi2_density6 0 x) by (apply continuity_implies_RiemannInt; auto; intros; apply density_cont).
  exists pr. apply mass_F6.
Qed.

Lemma F6_incr x y : 0 <= x -> x < y -> F6 x < F6 y.
Proof.
  intros Hx Hxy. destruct (MVT_cor2 F6 chi2_density6 x y Hxy) as (c & E & Hc); [intros; apply F6_deriv|].
  assert (0 < chi2_density6 c). { unfold chi2_density6. apply Rmult_lt_0_compat; [|lra]. apply Rmult_lt_0_compat; [apply pow_lt; lra|apply exp_pos]. }
  assert (0 < chi2_density6 c * (y - x)) by (apply Rmult_lt_0_compat; lra). lra.
Qed.
Lemma F6_lt x y : 0 <= x -> 0 <= y -> (F6 x < F6 y <-> x < y).
Proof.
  intros Hx Hy. split; [|apply F6_incr; auto]. intros H. destruct (Rlt_or_le x y) as [|[L|L]]; auto.
  - pose proof (F6_incr y x Hy L). lra. - subst. lra.
Qed.
Lemma F6_inj x y : 0 <= x -> 0 <= y -> F6 x = F6 y -> x = y.
Proof.
  intros Hx Hy E. destruct (Rtotal_order x y) as [L|[L|L]]; auto; apply F6_incr in L; auto; lra.
Qed.

Lemma exp_ge y : 0 <= y -> (1 + y / 4) ^ 4 <= exp y.
Proof.
  intros Hy. replace (exp y) with (exp (y / 4) ^ 4).
  - apply pow_incr. split; [lra|]. destruct (Req_dec y 0) as [->|N]; [replace (0 / 4) with 0 by lra; rewrite exp_0; lra|]. left. apply exp_ineq1. lra.
  - cbn. rewrite Rmult_1_r, <- !exp_plus. f_equal. lra.
Qed.
(** The tail. *)
Lemma F6_tail x e : 0 < e -> 0 < x -> 2048 <= e * x ^ 2 -> 8 <= x -> 1 - e < F6 x.
Proof.
  intros He Hx H H8. unfold F6. set (y := x / 2). assert (Hy : 0 < y) by (unfold y; lra).
  assert (E : exp (- y) * exp y = 1) by (rewrite <- exp_plus, Rplus_opp_l; apply exp_0).
  assert (G : (1 + y / 4) ^ 4 <= exp y) by (apply exp_ge; lra). pose proof (exp_pos (- y)) as P.
  assert (K : exp (- y) * (1 + y / 4) ^ 4 <= 1) by (apply Rle_trans with (exp (- y) * exp y); [apply Rmult_le_compat_l; lra|lra]).
  replace (1 + y + x ^ 2 / 8) with (1 + y + y ^ 2 / 2) by (unfold y; field).
  assert (B : 1 + y + y ^ 2 / 2 < e * (1 + y / 4) ^ 4).
  { replace x with (2 * y) in H, H8 by (unfold y; lra). apply Rlt_le_trans with (e * (y / 4) ^ 4).
    - replace (e * (y / 4) ^ 4) with ((e * (2 * y) ^ 2) * (y ^ 2 / 1024)) by (cbn; field).
      apply Rlt_le_trans with (2048 * (y ^ 2 / 1024)); [nra|]. apply Rmult_le_compat_r; [nra|exact H].
    - apply Rmult_le_compat_l; [lra|]. apply pow_incr. lra. }
  assert (exp (- y) * (1 + y + y ^ 2 / 2) < e); [|lra].
  apply Rlt_le_trans with (exp (- y) * (e * (1 + y / 4) ^ 4)); [apply Rmult_lt_compat_l; auto|]. nra.
Qed.
Lemma F6_below_1 x : 0 <= x -> F6 x < 1.
Proof. intros Hx. unfold F6. pose proof (exp_pos (- (x / 2))). assert (0 < 1 + x / 2 + x ^ 2 / 8) by nra. assert (0 < exp (- (x / 2)) * (1 + x / 2 + x ^ 2 / 8)) by (apply Rmult_lt_0_compat; auto). lra. Qed.

(** There are such quantiles. *)
Lemma F6_onto q : 0 < q < 1 -> { x : R | 0 <= x /\ F6 x = q }.
Proof.
  intros [H0 H1]. set (e := 1 - q). set (X := 8 + 2048 / e). assert (He : 0 < e <= 1) by (unfold e; lra).
  assert (HX : 8 <= X). { unfold X. assert (0 < 2048 / e) by (apply Rdiv_lt_0_compat; lra). lra. }
  assert (T : 1 - e < F6 X).
  { apply F6_tail; try lra. assert (A : e * (2048 / e) = 2048) by (field; lra). assert (B : 0 < 2048 / e) by (apply Rdiv_lt_0_compat; lra).
    unfold X. replace ((8 + 2048 / e) ^ 2) with (64 + 16 * (2048 / e) + (2048 / e) * (2048 / e)) by ring. nra. }
  destruct (IVT (fun x => F6 x - q) 0 X) as (z & Hz & Ez).
  - intros x. apply continuity_pt_minus; [apply derivable_continuous_pt; apply F6_der|apply continuity_pt_const; intros ? ?; reflexivity].
  - lra. - rewrite F6_0. lra. - unfold e in T. lra.
  - exists z. split; lra.
Qed.
Definition some_chi2inv (q : R) (_ : N) : R :=
  match Rlt_dec 0 q with left H0 => match Rlt_dec q 1 with left H1 => proj1_sig (F6_onto q (conj H0 H1)) | _ => 0 end | _ => 0 end.
Lemma some_chi2inv_ok : chi2inv_ok some_chi2inv.
Proof.
  intros q [H0 H1]. unfold some_chi2inv. destruct (Rlt_dec 0 q) as [K0|]; [|contradiction]. destruct (Rlt_dec q 1) as [K1|]; [|contradiction].
  destruct (F6_onto q (conj K0 K1)) as (x & Hx & E). cbn. split; auto. apply mass_iff; auto.
Qed.

Lemma sq_lt a b : 0 <= a -> 0 <= b -> (a * a < b * b <-> a < b).
Proof. intros. split; intros; nra. Qed.
Lemma sq_eq a b : 0 <= a -> 0 <= b -> a * a = b * b -> a = b.
Proof. intros A B E. rewrite <- (sqrt_square a), <- (sqrt_square b) by auto. congruence. Qed.
Lemma F6_sq a b : 0 <= a -> 0 <= b -> (F6 (a * a) < F6 (b * b) <-> a < b).
Proof. intros A B. rewrite F6_lt by nra. apply sq_lt; auto. Qed.

Section P.
Context (chi2inv : R -> N -> R) (HC : chi2inv_ok chi2inv).
Notation thr := (errorThresholdAtQuantile chi2inv).

Lemma thr_form q dim t : thr q dim = Ok t -> u32 dim = 3%N /\ 0 < q /\ t = if Rlt_dec q 1 then sqrt (chi2inv q 6%N) else 100000.
Proof.
  unfold errorThresholdAtQuantile. destruct (N.eqb_spec (u32 dim) 3); [|discriminate]. cbn [check]. cbn [nltb NumR n0 n1 nofZ nsqrt].
  destruct (Rlt_dec 0 q); [|discriminate]. cbn [check]. destruct (Rlt_dec q 1); intros [= <-]; auto.
Qed.
Theorem thr_defined q dim : (exists t, thr q dim = Ok t) <-> (dim mod 4294967296 = 3)%N /\ 0 < q.
Proof.
  split; [intros (t & E); apply thr_form in E; unfold u32, two32 in E; tauto|]. intros [D Q]. unfold errorThresholdAtQuantile, u32, two32. rewrite D.
  cbn [N.eqb Pos.eqb check nltb NumR n0 n1]. destruct (Rlt_dec 0 q); [|contradiction]. cbn [check]. destruct (Rlt_dec q 1); eauto.
Qed.
Theorem thr_failure q dim : ~ ((dim mod 4294967296 = 3)%N /\ 0 < q) -> thr q dim = Abort.
Proof.
  intros H. unfold errorThresholdAtQuantile, u32, two32. destruct (N.eqb_spec (dim mod 4294967296) 3); [|reflexivity]. cbn [check nltb NumR n0].
  destruct (Rlt_dec 0 q); [|reflexivity]. tauto.
Qed.
Theorem thr_quantile q t : 0 < q < 1 -> thr q 3 = Ok t -> 0 < t /\ mass_upto (t * t) q /\ forall t', 0 <= t' -> mass_upto (t' * t') q -> t' = t.
Proof.
  intros Hq E. apply thr_form in E. destruct E as (_ & _ & ->). destruct (Rlt_dec q 1); [|lra]. destruct (HC q Hq) as [H0 M].
  rewrite sqrt_sqrt by auto. split.
  - apply sqrt_lt_R0. destruct H0 as [|E0]; auto. rewrite <- E0 in M. apply mass_iff in M; [|lra]. rewrite F6_0 in M. lra.
  - split; auto. intros t' Ht M'. apply mass_iff in M; auto. apply mass_iff in M'; [|nra]. rewrite <- M in M'. apply F6_inj in M'; auto; [|nra].
    rewrite <- M'. symmetry. apply sqrt_square. auto.
Qed.
Lemma thr_within q t r : 0 < q < 1 -> thr q 3 = Ok t -> 0 <= r -> (within q r <-> r < t).
Proof.
  intros Hq E Hr. destruct (thr_quantile q t Hq E) as (Ht & M & _). apply mass_iff in M; [|nra]. unfold within. split.
  - intros W. specialize (W (F6 (r * r)) ltac:(apply mass_iff; [nra|reflexivity])). rewrite <- M in W. apply (proj1 (F6_sq r t Hr (Rlt_le _ _ Ht))). exact W.
  - intros L p Mp. apply mass_iff in Mp; [|nra]. rewrite <- Mp, <- M. apply (proj2 (F6_sq r t Hr (Rlt_le _ _ Ht))). exact L.
Qed.
Lemma thr_upto q t r : 0 < q < 1 -> thr q 3 = Ok t -> 0 <= r -> (upto q r <-> r <= t).
Proof.
  intros Hq E Hr. destruct (thr_quantile q t Hq E) as (Ht & M & _). apply mass_iff in M; [|nra]. unfold upto. split.
  - intros W. specialize (W (F6 (r * r)) ltac:(apply mass_iff; [nra|reflexivity])). apply Rnot_lt_le. intros L. apply F6_sq in L; lra.
  - intros L p Mp. apply mass_iff in Mp; [|nra]. rewrite <- Mp, <- M. apply Rnot_lt_le. intros K. apply (proj1 (F6_sq t r (Rlt_le _ _ Ht) Hr)) in K. lra.
Qed.
Theorem thr_mono q q' t t' : q <= q' -> q <= 1 - / 9007199254740992 -> q' <= 1 - / 9007199254740992 \/ 1 <= q' ->
  thr q 3 = Ok t -> thr q' 3 = Ok t' -> t <= t' /\ (q < q' -> t < t').
Proof.
  intros L Hq2 D E E'. assert (Q : 0 < q < 1) by (split; [apply thr_form in E; tauto|lra]). destruct (thr_quantile q t Q E) as (Ht & M & _).
  apply mass_iff in M; [|nra]. assert (D' : q' < 1 \/ 1 <= q') by lra. destruct D' as [D'|D'].
  - assert (Q' : 0 < q' < 1) by lra. destruct (thr_quantile q' t' Q' E') as (Ht' & M' & _). apply mass_iff in M'; [|nra].
    destruct (Req_dec q q') as [EQ|N].
    + split; [|lra]. right. apply sq_eq; try lra. apply F6_inj; try nra; congruence.
    + assert (X : t < t') by (apply F6_sq; lra). split; [|intros _]; lra.
  - apply thr_form in E'. destruct E' as (_ & _ & ->). destruct (Rlt_dec q' 1); [lra|]. assert (t < 100000); [|lra].
    assert (T : 1 - / 9007199254740992 < F6 (100000 * 100000)) by (apply F6_tail; lra).
    apply F6_sq; lra.
Qed.
Theorem thr_at_one q t : 1 <= q -> thr q 3 = Ok t -> t = 100000.
Proof. intros Hq E. apply thr_form in E. destruct E as (_ & _ & ->). destruct (Rlt_dec q 1); [lra|reflexivity]. Qed.

(** ** Weights with such a threshold *)
Theorem tls_weight q t p r c : 0 < q < 1 -> thr q 3 = Ok t -> costType p = TLS -> TLSThreshold p = t -> rc_params c = p -> 0 <= r ->
  (within q r -> weight c r = 1) /\ (~ within q r -> weight c r = 0).
Proof.
  intros Hq E Hp Ht Hc Hr. pose proof (thr_within q t r Hq E Hr) as W. unfold weight. rewrite Hc, Hp, Ht. cbn [nltb NumR n0 n1].
  destruct (Rlt_dec r t); split; tauto.
Qed.
Theorem gnc_weight q t p r c : 0 < q < 1 -> thr q 3 = Ok t -> costType p = GNC_TLS -> GNCBarc p = t -> rc_params c = p -> 0 <= r -> 0 < rc_mu c ->
  let s := sqrt ((rc_mu c + 1) / rc_mu c) in
  (weight c r = 0 <-> ~ within q (r / s)) /\ (weight c r = 1 <-> upto q (r * s)).
Proof.
  intros Hq E Hp Ht Hc Hr Hmu s. destruct (thr_quantile q t Hq E) as (T0 & _). set (m := rc_mu c) in *.
  assert (Hk : 1 < (m + 1) / m). { apply (Rmult_lt_reg_r m); auto. unfold Rdiv. rewrite Rmult_assoc, Rinv_l by lra. lra. }
  assert (Hs2 : s * s = (m + 1) / m) by (apply sqrt_sqrt; lra). assert (Hs : 1 < s). { rewrite <- sqrt_1. apply sqrt_lt_1; lra. }
  assert (Hi : m / (m + 1) = / (s * s)) by (rewrite Hs2; field; lra).
  assert (Sr : (r / s) * (r / s) * (s * s) = r * r) by (field; lra).
  assert (W1 : within q (r / s) <-> r / s < t) by (apply (thr_within q t); auto; apply Rmult_le_pos; [auto|left; apply Rinv_0_lt_compat; lra]).
  assert (A1 : r / s < t <-> r < t * s).
  { split; intros H. - apply (Rmult_lt_compat_r s) in H; [|lra]. unfold Rdiv in H. rewrite Rmult_assoc, Rinv_l, Rmult_1_r in H by lra. auto.
    - apply (Rmult_lt_reg_r s); [lra|]. unfold Rdiv. rewrite Rmult_assoc, Rinv_l, Rmult_1_r by lra. auto. }
  pose proof (thr_upto q t (r * s) Hq E ltac:(apply Rmult_le_pos; lra)) as U1.
  unfold weight. rewrite Hc, Hp, Ht. fold m. cbn [nleb NumR n0 n1 nmul ndiv nadd nsub nsqrt]. rewrite Hi, <- Hs2.
  assert (B : (s * s * (t * t) <= r * r) <-> ~ r < t * s).
  { split; intros H. - intros L. nra. - apply Rnot_lt_le in H. replace (s * s * (t * t)) with ((t * s) * (t * s)) by ring. apply Rmult_le_compat; nra. }
  assert (C : (r * r <= / (s * s) * (t * t)) <-> r * s <= t).
  { assert (P : 0 < s * s) by nra. split; intros H.
    - apply (Rmult_le_compat_r (s * s)) in H; [|lra]. replace (/ (s * s) * (t * t) * (s * s)) with (t * t) in H by (field; lra). apply Rsqr_incr_0; unfold Rsqr; nra.
    - apply (Rmult_le_reg_r (s * s)); auto. replace (/ (s * s) * (t * t) * (s * s)) with (t * t) by (field; lra).
      replace (r * r * (s * s)) with ((r * s) * (r * s)) by ring. apply Rmult_le_compat; nra. }
  destruct (Rle_dec (s * s * (t * t)) (r * r)) as [L|L].
  - split; [split; auto; intros _; rewrite W1, A1; tauto|]. split.
    + intros; lra.
    + intros W. apply (proj1 U1) in W. exfalso. apply B in L. apply L. assert (r <= r * s) by nra. assert (t < t * s) by nra. lra.
  - assert (L' : r < t * s). { destruct (Rlt_dec r (t * s)); auto. exfalso. tauto. }
    destruct (Rle_dec (r * r) (/ (s * s) * (t * t))) as [M|M].
    + split; [split; [intros; lra|intros N; exfalso; apply N, W1, A1; auto]|]. split; auto. intros _. apply (proj2 U1), C, M.
    + assert (M' : t < r * s). { apply Rnot_le_lt. tauto. } assert (R0 : 0 < r) by nra.
      (* strictly between: the weight is in (0,1) *)
      set (v := t * t * m * (m + 1) / (r * r)).
      assert (Rr : 0 < r * r) by nra. assert (Hv : v * (r * r) = t * t * m * (m + 1)) by (unfold v; field; lra).
      assert (m1 : m * (s * s) = m + 1) by (rewrite Hs2; field; lra).
      assert (V1 : m * m < v).
      { apply (Rmult_lt_reg_r (r * r)); auto. rewrite Hv, <- m1. replace (t * t * m * (m * (s * s))) with (m * m * ((t * s) * (t * s))) by ring.
        apply Rmult_lt_compat_l; [nra|]. apply sq_lt; nra. }
      assert (V2 : v < (m + 1) * (m + 1)).
      { apply (Rmult_lt_reg_r (r * r)); auto. rewrite Hv. replace (t * t * m * (m + 1)) with ((m * (m + 1)) * (t * t)) by ring.
        replace ((m + 1) * (m + 1) * (r * r)) with ((m * (m + 1)) * ((r * s) * (r * s))).
        - apply Rmult_lt_compat_l; [nra|]. apply sq_lt; nra.
        - replace (m * (m + 1) * (r * s * (r * s))) with ((m * (s * s)) * (m + 1) * (r * r)) by ring. rewrite m1. ring. }
      assert (Q1 : m < sqrt v). { rewrite <- (sqrt_square m) by lra. apply sqrt_lt_1; nra. }
      assert (Q2 : sqrt v < m + 1). { rewrite <- (sqrt_square (m + 1)) by lra. apply sqrt_lt_1; nra. }
      split; [split; [intros X; exfalso; lra|intros N; exfalso; apply N, W1, A1; auto]|].
      split; [intros X; exfalso; lra|intros W; apply (proj1 U1) in W; lra].
Qed.
End P.

(** The averaging of a neighbour's frame takes 0.9 as its quantile. *)
Lemma below_mass chi2inv (HC : chi2inv_ok chi2inv) q t e : 0 < q < 1 -> errorThresholdAtQuantile chi2inv q 3 = Ok t -> 0 <= e -> e < t * t ->
  exists p, mass_upto e p /\ p < q.
Proof.
  intros Hq E He L. destruct (thr_quantile chi2inv HC q t Hq E) as (Ht & M & _). apply mass_iff in M; [|nra].
  exists (F6 e). split; [apply mass_iff; auto|]. rewrite <- M. apply F6_lt; nra.
Qed.

(** Beyond the doubles the value at quantile 1 is not an upper bound, and it
    rejects large residuals in any case. *)
Theorem one_refuted : exists q t t', q < 1 /\ errorThresholdAtQuantile some_chi2inv q 3 = Ok t /\ errorThresholdAtQuantile some_chi2inv 1 3 = Ok t' /\ t' < t.
Proof.
  set (q := F6 (100001 * 100001)). assert (Q : 0 < q < 1). { split; [unfold q; rewrite <- F6_0; apply F6_incr; lra|apply F6_below_1; lra]. }
  destruct (proj2 (thr_defined some_chi2inv q 3) (conj eq_refl (proj1 Q))) as (t & E).
  destruct (proj2 (thr_defined some_chi2inv 1 3) (conj eq_refl Rlt_0_1)) as (t' & E').
  exists q, t, t'. split; [apply Q|]. split; auto. split; auto. rewrite (thr_at_one some_chi2inv 1 t' ltac:(lra) E').
  destruct (thr_quantile _ some_chi2inv_ok q t Q E) as (Ht & M & _). apply mass_iff in M; [|nra]. apply F6_inj in M; nra.
Qed.
Theorem one_rejects chi2inv q t p c r : 1 <= q -> errorThresholdAtQuantile chi2inv q 3 = Ok t -> costType p = TLS -> TLSThreshold p = t -> rc_params c = p ->
  100000 <= r -> weight c r = 0.
Proof.
  intros Hq E Hp Ht Hc Hr. apply thr_at_one in E; auto. unfold weight. rewrite Hc, Hp, Ht, E. cbn [nltb NumR n0 n1]. destruct (Rlt_dec r 100000); [lra|reflexivity].
Qed.
Theorem distribution : (forall x, 0 <= x -> exists p, mass_upto x p /\ p < 1 /\ forall p', mass_upto x p' -> p' = p) /\
  forall q, 0 < q < 1 -> exists x, 0 < x /\ mass_upto x q /\ forall x', 0 <= x' -> mass_upto x' q -> x' = x.
Proof.
  split.
  - intros x Hx. exists (F6 x). split; [apply mass_iff; auto|]. split; [apply F6_below_1; auto|]. intros p' M. apply mass_iff in M; auto.
  - intros q Hq. destruct (F6_onto q Hq) as (x & Hx & E). exists x. split.
    + destruct Hx as [|<-]; auto. rewrite F6_0 in E. lra.
    + split; [apply mass_iff; auto|]. intros x' Hx' M. apply mass_iff in M; auto. apply F6_inj; auto. congruence.
Qed.

(** ** The 0.9 quantile lies between 10 and 11 *)
Lemma e_lo : 3588 / 10000 <= exp (- (1)).
Proof.
  assert (A : 31 / 32 <= exp (- (1 / 32))) by (left; replace (31 / 32) with (1 + - (1 / 32)) by lra; apply exp_ineq1; lra).
  assert (B : 938 / 1000 <= exp (- (1 / 16))) by (replace (- (1 / 16)) with (- (1 / 32) + - (1 / 32)) by lra; rewrite exp_plus; nra).
  assert (C : 8798 / 10000 <= exp (- (1 / 8))) by (replace (- (1 / 8)) with (- (1 / 16) + - (1 / 16)) by lra; rewrite exp_plus; nra).
  assert (D : 7740 / 10000 <= exp (- (1 / 4))) by (replace (- (1 / 4)) with (- (1 / 8) + - (1 / 8)) by lra; rewrite exp_plus; nra).
  assert (E : 5990 / 10000 <= exp (- (1 / 2))) by (replace (- (1 / 2)) with (- (1 / 4) + - (1 / 4)) by lra; rewrite exp_plus; nra).
  replace (- (1)) with (- (1 / 2) + - (1 / 2)) by lra; rewrite exp_plus; nra.
Qed.
Lemma e_hi : 1638 / 1000 <= exp (1 / 2) /\ 2666 / 1000 <= exp 1.
Proof.
  assert (A : 65 / 64 <= exp (1 / 64)) by (left; replace (65 / 64) with (1 + 1 / 64) by lra; apply exp_ineq1; lra).
  assert (B : 10314 / 10000 <= exp (1 / 32)) by (replace (1 / 32) with (1 / 64 + 1 / 64) by lra; rewrite exp_plus; nra).
  assert (C : 10637 / 10000 <= exp (1 / 16)) by (replace (1 / 16) with (1 / 32 + 1 / 32) by lra; rewrite exp_plus; nra).
  assert (D : 11314 / 10000 <= exp (1 / 8)) by (replace (1 / 8) with (1 / 16 + 1 / 16) by lra; rewrite exp_plus; nra).
  assert (E : 128 / 100 <= exp (1 / 4)) by (replace (1 / 4) with (1 / 8 + 1 / 8) by lra; rewrite exp_plus; nra).
  assert (G : 1638 / 1000 <= exp (1 / 2)) by (replace (1 / 2) with (1 / 4 + 1 / 4) by lra; rewrite exp_plus; nra).
  split; auto. replace (exp 1) with (exp (1 / 2) * exp (1 / 2)); [nra|]. rewrite <- exp_plus. f_equal. lra.
Qed.

Lemma F6_10 : F6 10 < 9 / 10.
Proof.
  unfold F6. pose proof e_lo as L. replace (- (10 / 2)) with (- (1) + - (1) + - (1) + - (1) + - (1)) by lra. rewrite !exp_plus.
  set (a := exp (- (1))) in *. assert (A2 : 1287 / 10000 <= a * a) by nra. assert (A4 : 1656 / 100000 <= (a * a) * (a * a)) by nra.
  assert (A5 : 5941 / 1000000 <= (a * a) * (a * a) * a) by nra. replace (a * a * a * a * a) with ((a * a) * (a * a) * a) by ring. lra.
Qed.
Lemma F6_11 : 9 / 10 < F6 11.
Proof.
  unfold F6. destruct e_hi as [H1 H2]. assert (K : 219 <= exp (11 / 2)).
  { replace (11 / 2) with (1 / 2 + (1 + 1 + (1 + 1) + 1)) by lra. rewrite !exp_plus. set (a := exp 1) in *. set (h := exp (1 / 2)) in *.
    assert (A2 : 71 / 10 <= a * a) by nra. assert (A4 : 504 / 10 <= (a * a) * (a * a)) by nra. assert (A5 : 1343 / 10 <= (a * a) * (a * a) * a) by nra.
    apply Rle_trans with (1638 / 1000 * (1343 / 10)); [lra|]. apply Rmult_le_compat; lra. }
  assert (E : exp (- (11 / 2)) * exp (11 / 2) = 1) by (rewrite <- exp_plus, Rplus_opp_l; apply exp_0). pose proof (exp_pos (- (11 / 2))).
  assert (exp (- (11 / 2)) * 219 <= 1) by nra. lra.
Qed.
(** The threshold the agents use. *)
Theorem thr_09 chi2inv (HC : chi2inv_ok chi2inv) : exists t, errorThresholdAtQuantile chi2inv (9 / 10) 3 = Ok t /\ 316 / 100 < t < 332 / 100.
Proof.
  destruct (proj2 (thr_defined chi2inv (9 / 10) 3)) as (t & E); [split; [reflexivity|lra]|]. exists t. split; auto.
  destruct (thr_quantile chi2inv HC (9 / 10) t ltac:(lra) E) as (Ht & M & _). apply mass_iff in M; [|nra].
  pose proof F6_10 as L. pose proof F6_11 as H. rewrite <- M in L, H. apply (proj1 (F6_lt 10 (t * t) ltac:(lra) ltac:(nra))) in L.
  apply (proj1 (F6_lt (t * t) 11 ltac:(nra) ltac:(lra))) in H. split; nra.
Qed.
