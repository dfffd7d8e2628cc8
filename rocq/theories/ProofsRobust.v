(** Proofs about the robust costs. *)
From Coq Require Import List NArith ZArith Bool Lia Reals Lra Psatz.
From Verif Require Import Base Num RSum ModelRobust SpecRobust.
Import ListNotations.
Local Open Scope R_scope.

Ltac xr := cbn [n0 n1 nadd nsub nmul ndiv nopp nsqrt nltb nleb neqb nofZ NumXR xadd xmul xdiv xopp xsqrt xltb xeqb] in *.

Lemma xltb_fin x y : xltb (Fin x) (Fin y) = true <-> x < y.
Proof. simpl. destruct (Rlt_dec x y); split; auto; try discriminate; lra. Qed.
Lemma xleb_fin x y : xleb (Fin x) (Fin y) = true <-> x <= y.
Proof.
  unfold xleb. simpl. destruct (Rlt_dec x y), (Req_EM_T x y); simpl; split; auto; try discriminate; lra.
Qed.
Lemma xleb_fin_false x y : xleb (Fin x) (Fin y) = false <-> y < x.
Proof.
  pose proof (xleb_fin x y). destruct (xleb (Fin x) (Fin y)); split; auto; intros; try discriminate.
  - assert (x <= y) by tauto. lra.
  - destruct (Rlt_dec y x); auto. assert (x <= y) by lra. apply H in H1. discriminate.
Qed.
Lemma xleb_inf x : xleb (Fin x) PInf = true.
Proof. reflexivity. Qed.
Lemma xleb_inf_fin x : xleb PInf (Fin x) = false.
Proof. reflexivity. Qed.

Lemma Req_refl_dec (x : R) (A : Type) (a b : A) : (if Req_EM_T x x then a else b) = a.
Proof. destruct (Req_EM_T x x); congruence. Qed.
Lemma Req_neq_dec (x y : R) (A : Type) (a b : A) : x <> y -> (if Req_EM_T x y then a else b) = b.
Proof. destruct (Req_EM_T x y); congruence. Qed.

(** ** The GNC weight over the reals *)
Section Gnc.
Variables mu c : R.
Hypothesis Hmu : 0 < mu.

Definition glow : R := mu / (mu + 1) * (c * c).
Definition gup : R := (mu + 1) / mu * (c * c).
Definition gmid (r : R) : R := sqrt (c * c * mu * (mu + 1) / (r * r)) - mu.
Definition gw (r : R) : R := if Rle_dec gup (r * r) then 0 else if Rle_dec (r * r) glow then 1 else gmid r.

Lemma glow_up : glow <= gup.
Proof.
  unfold glow, gup. apply Rmult_le_compat_r; [nra|].
  apply Rmult_le_reg_r with (mu * (mu + 1)); [nra|].
  replace (mu / (mu + 1) * (mu * (mu + 1))) with (mu * mu) by (field; lra).
  replace ((mu + 1) / mu * (mu * (mu + 1))) with ((mu + 1) * (mu + 1)) by (field; lra). nra.
Qed.
Lemma glow_nonneg : 0 <= glow.
Proof. unfold glow. apply Rmult_le_pos; [|nra]. apply Rlt_le, Rdiv_lt_0_compat; lra. Qed.

Lemma gmid_sq r : 0 < r -> (gmid r + mu) * (gmid r + mu) * (r * r) = c * c * mu * (mu + 1) /\ 0 <= gmid r + mu.
Proof.
  intros Hr. unfold gmid. set (q := c * c * mu * (mu + 1) / (r * r)).
  assert (Hq : 0 <= q). { unfold q. apply Rmult_le_pos; [|apply Rlt_le, Rinv_0_lt_compat; nra].
    apply Rmult_le_pos; [|lra]. apply Rmult_le_pos; nra. }
  replace (sqrt q - mu + mu) with (sqrt q) by lra. split; [|apply sqrt_pos].
  rewrite sqrt_sqrt by auto. unfold q. field. lra.
Qed.

Lemma gmid_bounds r : 0 < r -> glow < r * r < gup -> 0 < gmid r < 1.
Proof.
  intros Hr [A B]. destruct (gmid_sq r Hr) as [E P]. set (x := gmid r + mu) in *.
  unfold glow, gup in *.
  assert (A' : mu * (c * c) < r * r * (mu + 1)).
  { apply Rmult_lt_reg_r with (/ (mu + 1)); [apply Rinv_0_lt_compat; lra|].
    replace (r * r * (mu + 1) * / (mu + 1)) with (r * r) by (field; lra). unfold Rdiv in A. lra. }
  assert (B' : r * r * mu < (mu + 1) * (c * c)).
  { apply Rmult_lt_reg_r with (/ mu); [apply Rinv_0_lt_compat; lra|].
    replace (r * r * mu * / mu) with (r * r) by (field; lra). unfold Rdiv in B. lra. }
  assert (mu < x < mu + 1); [|unfold x in *; lra]. split.
  - assert (mu * mu * (r * r) < x * x * (r * r)). { rewrite E. nra. }
    assert (mu * mu < x * x) by (apply Rmult_lt_reg_r with (r * r); nra). nra.
  - assert (x * x * (r * r) < (mu + 1) * (mu + 1) * (r * r)). { rewrite E. nra. }
    assert (x * x < (mu + 1) * (mu + 1)) by (apply Rmult_lt_reg_r with (r * r); nra). nra.
Qed.

(** The three cases. *)
Lemma gw_cases r : 0 <= r ->
  (gup <= r * r /\ gw r = 0) \/
  (r * r <= glow /\ r * r < gup /\ gw r = 1) \/
  (0 < r /\ glow < r * r < gup /\ gw r = gmid r /\ 0 < gmid r < 1).
Proof.
  intros Hr. unfold gw. destruct (Rle_dec gup (r * r)); [left; auto|].
  destruct (Rle_dec (r * r) glow); [right; left; repeat split; auto; lra|].
  right; right. pose proof glow_nonneg. assert (0 < r) by nra.
  assert (B : glow < r * r < gup) by lra. pose proof (gmid_bounds r H0 B). tauto.
Qed.

Lemma gw_unit r : 0 <= r -> 0 <= gw r <= 1.
Proof. intros Hr. destruct (gw_cases r Hr) as [[_ ->]|[[_ [_ ->]]|[_ [_ [-> ?]]]]]; lra. Qed.

Lemma gmid_mono r1 r2 : 0 < r1 -> r1 <= r2 -> gmid r2 <= gmid r1.
Proof.
  intros H1 H2. unfold gmid. apply Rplus_le_compat_r. apply sqrt_le_1_alt.
  unfold Rdiv. apply Rmult_le_compat_l.
  - apply Rmult_le_pos; [|lra]. apply Rmult_le_pos; nra.
  - apply Rinv_le_contravar; nra.
Qed.

Lemma gw_mono r1 r2 : 0 <= r1 -> r1 <= r2 -> gw r2 <= gw r1.
Proof.
  intros H1 H2. assert (H3 : 0 <= r2) by lra. assert (r1 * r1 <= r2 * r2) by nra.
  pose proof (gw_unit r1 H1). pose proof (gw_unit r2 H3).
  destruct (gw_cases r2 H3) as [[A2 E2]|[[A2 [B2 E2]]|[A2 [B2 [E2 C2]]]]]; [lra| |].
  - destruct (gw_cases r1 H1) as [[A1 E1]|[[A1 [B1 E1]]|[A1 [B1 [E1 C1]]]]]; lra.
  - destruct (gw_cases r1 H1) as [[A1 E1]|[[A1 [B1 E1]]|[A1 [B1 [E1 C1]]]]]; try lra.
    rewrite E1, E2. apply gmid_mono; auto.
Qed.

Lemma gw_objective r w : 0 <= r -> 0 <= w <= 1 -> gnc_objective mu c r (gw r) <= gnc_objective mu c r w.
Proof.
  intros Hr Hw. pose proof (gw_unit r Hr) as U. unfold gnc_objective.
  set (v := gw r) in *.
  assert (E : w * (r * r) + mu * (1 - w) / (mu + w) * (c * c) - (v * (r * r) + mu * (1 - v) / (mu + v) * (c * c))
    = (w - v) * ((r * r) * ((mu + v) * (mu + w)) - c * c * mu * (mu + 1)) * / ((mu + v) * (mu + w))).
  { field. lra. }
  assert (0 <= (w - v) * ((r * r) * ((mu + v) * (mu + w)) - c * c * mu * (mu + 1))).
  2:{ assert (0 < / ((mu + v) * (mu + w))) by (apply Rinv_0_lt_compat; apply Rmult_lt_0_compat; lra). nra. }
  clear E. unfold v in *. destruct (gw_cases r Hr) as [[A ->]|[[A [B ->]]|[A [B [-> C]]]]].
  - unfold gup in A. assert ((mu + 1) * (c * c) <= r * r * mu).
    { replace ((mu + 1) * (c * c)) with ((mu + 1) / mu * (c * c) * mu) by (field; lra). nra. }
    apply Rmult_le_pos; [lra|]. assert (0 <= r * r * mu) by nra.
    assert (mu * ((mu + 1) * (c * c)) <= mu * (r * r * mu)) by nra.
    assert (0 <= r * r * mu * w) by nra. nra.
  - unfold glow in A. assert (r * r * (mu + 1) <= mu * (c * c)).
    { replace (mu * (c * c)) with (mu / (mu + 1) * (c * c) * (mu + 1)) by (field; lra). nra. }
    assert (0 <= (1 - w) * (c * c * mu * (mu + 1) - r * r * ((mu + 1) * (mu + w)))); [|lra].
    apply Rmult_le_pos; [lra|].
    assert ((mu + 1) * (r * r * (mu + 1)) <= (mu + 1) * (mu * (c * c))) by nra.
    assert (0 <= r * r * (mu + 1) * (1 - w)) by (apply Rmult_le_pos; nra). nra.
  - destruct (gmid_sq r A) as [E P]. rewrite <- E.
    replace ((w - gmid r) * (r * r * ((mu + gmid r) * (mu + w)) - (gmid r + mu) * (gmid r + mu) * (r * r)))
      with ((r * r) * (mu + gmid r) * ((w - gmid r) * (w - gmid r))) by ring.
    apply Rmult_le_pos; [|apply Rle_0_sqr]. apply Rmult_le_pos; [apply Rle_0_sqr|lra].
Qed.
End Gnc.

(** ** The model over the extended reals *)
Lemma weight_gnc_fin (co : RobustCost XR) mu c r :
  costType (rc_params co) = GNC_TLS -> rc_mu co = Fin mu -> GNCBarc (rc_params co) = Fin c ->
  0 < mu -> 0 <= r -> weight co (Fin r) = Fin (gw mu c r).
Proof.
  intros T M B Hmu Hr. unfold weight. rewrite T, M, B. xr.
  rewrite (Req_neq_dec mu 0), (Req_neq_dec (mu + 1) 0) by lra. xr. unfold gw. fold (glow mu c) (gup mu c).
  destruct (xleb (Fin (gup mu c)) (Fin (r * r))) eqn:E1.
  { apply xleb_fin in E1. destruct (Rle_dec _ _); [reflexivity|lra]. }
  apply xleb_fin_false in E1. destruct (Rle_dec (gup mu c) (r * r)); [lra|].
  destruct (xleb (Fin (r * r)) (Fin (glow mu c))) eqn:E2.
  { apply xleb_fin in E2. destruct (Rle_dec _ _); [reflexivity|lra]. }
  apply xleb_fin_false in E2. destruct (Rle_dec (r * r) (glow mu c)); [lra|].
  pose proof (glow_nonneg mu c Hmu). assert (0 < r * r) by lra.
  rewrite Req_neq_dec by lra. xr.
  destruct (Rlt_dec _ 0) as [L|L].
  - exfalso. apply (Rlt_irrefl 0). eapply Rle_lt_trans; [|exact L].
    unfold Rdiv. apply Rmult_le_pos; [|apply Rlt_le, Rinv_0_lt_compat; auto].
    apply Rmult_le_pos; [|lra]. apply Rmult_le_pos; [|lra]. apply Rle_0_sqr.
  - reflexivity.
Qed.

Lemma weight_gnc_inf (co : RobustCost XR) mu c :
  costType (rc_params co) = GNC_TLS -> rc_mu co = Fin mu -> GNCBarc (rc_params co) = Fin c ->
  0 < mu -> weight co PInf = Fin 0.
Proof. intros T M B Hmu. unfold weight. rewrite T, M, B. xr. rewrite (Req_neq_dec mu 0), (Req_neq_dec (mu + 1) 0) by lra. xr. reflexivity. Qed.

Definition good_cost (co : RobustCost XR) : Prop := good_params (rc_params co) /\ pos_fin (rc_mu co).

Lemma good_new p : good_params p -> good_cost (rc_new p).
Proof.
  intros G. unfold rc_new, rc_reset. destruct G as (A & B & C & D & E).
  split; destruct (costType p) eqn:T; simpl; rewrite T; simpl; unfold good_params; auto.
Qed.
Lemma good_step co o : good_cost co -> good_cost (rc_step co o).
Proof.
  intros [G M]. pose proof G as (A & B & C & D & E). destruct o; simpl.
  - unfold rc_update. destruct (negb _); [split; auto|].
    destruct (N.ltb _ _); split; simpl; auto.
    destruct B as (s & -> & Hs), M as (m & -> & Hm). exists (s * m). split; [reflexivity|nra].
  - unfold rc_reset. destruct (costType _); split; simpl; auto.
Qed.
Lemma params_step {S} `{Num S} (co : RobustCost S) o : rc_params (rc_step co o) = rc_params co.
Proof.
  destruct o; simpl.
  - unfold rc_update. destruct (negb _); [auto|]. destruct (N.ltb _ _); auto.
  - unfold rc_reset. destruct (costType (rc_params co)); auto.
Qed.
Lemma params_fold {S} `{Num S} os : forall co : RobustCost S, rc_params (fold_left rc_step os co) = rc_params co.
Proof. induction os as [|o os IH]; intros co; simpl; auto. rewrite IH. apply params_step. Qed.
Lemma params_new {S} `{Num S} (p : RobustParams S) : rc_params (rc_new p) = p.
Proof. unfold rc_new, rc_reset. simpl. destruct (costType p); reflexivity. Qed.
Lemma params_run {S} `{Num S} (p : RobustParams S) os : rc_params (rc_run p os) = p.
Proof. unfold rc_run. rewrite params_fold. apply params_new. Qed.
Lemma good_run p os : good_params p -> good_cost (rc_run p os).
Proof.
  intros G. unfold rc_run. generalize (good_new p G). generalize (rc_new p).
  induction os as [|o os IH]; intros co Hc; simpl; auto. apply IH, good_step; auto.
Qed.

Lemma in_unit_fin x : 0 <= x <= 1 -> in_unit (Fin x).
Proof. intros. exists x; auto. Qed.

Lemma weight_unit co r : good_cost co -> residual r -> costType (rc_params co) <> L1 -> in_unit (weight co r).
Proof.
  intros [(B & _ & _ & Hu & Ht) M] HR NL.
  destruct B as (c & B & Hc), M as (mu & M & Hm), Hu as (hu & Hu & Phu), Ht as (tl & Ht & Ptl).
  destruct (costType (rc_params co)) eqn:T; [| congruence | | | |].
  - unfold weight. rewrite T. apply in_unit_fin. lra.
  - unfold weight. rewrite T, Ht. cbn [nltb NumXR]. destruct (xltb _ _); apply in_unit_fin; lra.
  - unfold weight. rewrite T, Hu. cbn [nltb NumXR]. destruct (xltb r (Fin hu)) eqn:L; [apply in_unit_fin; lra|].
    destruct HR as [->|(x & -> & Hx)]; xr; [apply in_unit_fin; lra|].
    assert (~ x < hu) by (destruct (Rlt_dec x hu); [discriminate L|auto]).
    rewrite Req_neq_dec by lra. apply in_unit_fin. split.
    + apply Rlt_le, Rdiv_lt_0_compat; lra.
    + apply Rmult_le_reg_r with x; [lra|]. unfold Rdiv. rewrite Rmult_assoc, Rinv_l by lra. lra.
  - unfold weight. rewrite T. destruct HR as [->|(x & -> & Hx)]; xr; [apply in_unit_fin; lra|].
    assert (0 <= x * x) by nra. rewrite Req_neq_dec by nra. apply in_unit_fin. split.
    + apply Rlt_le, Rdiv_lt_0_compat; nra.
    + apply Rmult_le_reg_r with ((1 + x * x) * (1 + x * x)); [nra|].
      unfold Rdiv. rewrite Rmult_assoc, Rinv_l by nra. nra.
  - destruct HR as [->|(x & -> & Hx)].
    + rewrite (weight_gnc_inf co mu c) by auto. apply in_unit_fin. lra.
    + rewrite (weight_gnc_fin co mu c) by auto. apply in_unit_fin. apply gw_unit; auto.
Qed.

Theorem weights_unit : forall p os r, good_params p -> costType p <> L1 -> residual r ->
  in_unit (weight (rc_run p os) r).
Proof.
  intros p os r G NL HR. apply weight_unit; auto; [apply good_run; auto|]. rewrite params_run. auto.
Qed.

Theorem weights_L1 : forall p os x, costType p = L1 ->
  (1 <= x -> in_unit (weight (rc_run p os) (Fin x))) /\
  (0 < x < 1 -> exists w, weight (rc_run p os) (Fin x) = Fin w /\ 1 < w) /\
  weight (rc_run p os) (Fin 0) = PInf.
Proof.
  intros p os x T. unfold weight. rewrite params_run, T. xr. split; [|split].
  - intros Hx. rewrite Req_neq_dec by lra. apply in_unit_fin. split.
    + apply Rlt_le, Rdiv_lt_0_compat; lra.
    + apply Rmult_le_reg_r with x; [lra|]. unfold Rdiv. rewrite Rmult_assoc, Rinv_l by lra. lra.
  - intros Hx. rewrite Req_neq_dec by lra. eexists. split; [reflexivity|].
    apply Rmult_lt_reg_r with x; [lra|]. unfold Rdiv. rewrite Rmult_assoc, Rinv_l by lra. lra.
  - rewrite Req_refl_dec. unfold xsign. destruct (Rlt_dec 0 1); [reflexivity|lra].
Qed.

(** Monotonicity *)
Lemma weight_mono co r1 r2 : good_cost co -> residual r1 -> residual r2 -> xleb r1 r2 = true ->
  xleb (weight co r2) (weight co r1) = true.
Proof.
  intros G R1 R2 L.
  destruct (costType (rc_params co)) eqn:T.
  2:{ unfold weight. rewrite T. destruct R1 as [->|(x1 & -> & P1)], R2 as [->|(x2 & -> & P2)]; xr.
      - apply xleb_fin; lra.
      - discriminate L.
      - destruct (Req_EM_T x1 0).
        + unfold xsign. destruct (Rlt_dec 0 1); [reflexivity|lra].
        + apply xleb_fin. apply Rlt_le, Rdiv_lt_0_compat; lra.
      - apply xleb_fin in L. destruct (Req_EM_T x1 0).
        + unfold xsign. destruct (Rlt_dec 0 1); [|lra]. destruct (Req_EM_T x2 0); reflexivity.
        + rewrite Req_neq_dec by lra. apply xleb_fin. apply Rmult_le_compat_l; [lra|]. apply Rinv_le_contravar; lra. }
  all: destruct (weight_unit co r1 G R1) as (w1 & E1 & U1); [congruence|];
       destruct (weight_unit co r2 G R2) as (w2 & E2 & U2); [congruence|].
  all: destruct G as [(B & _ & _ & Hu & Ht) M];
       destruct B as (c & B & Hc), M as (mu & M & Hm), Hu as (hu & Hu & Phu), Ht as (tl & Ht & Ptl).
  - unfold weight. rewrite T. apply xleb_fin; lra.
  - rewrite E1, E2. apply xleb_fin. unfold weight in E1, E2. rewrite T, Ht in E1, E2. xr.
    destruct R2 as [->|(x2 & -> & P2)].
    { xr. inversion E2. subst. lra. }
    destruct R1 as [->|(x1 & -> & P1)]; [discriminate L|]. apply xleb_fin in L.
    xr. destruct (Rlt_dec x1 tl), (Rlt_dec x2 tl); inversion E1; inversion E2; subst; lra.
  - rewrite E1, E2. apply xleb_fin. unfold weight in E1, E2. rewrite T, Hu in E1, E2. xr.
    destruct R2 as [->|(x2 & -> & P2)].
    { xr. inversion E2. subst. lra. }
    destruct R1 as [->|(x1 & -> & P1)]; [discriminate L|]. apply xleb_fin in L. xr.
    destruct (Rlt_dec x1 hu).
    + assert (w1 = 1) by congruence. lra.
    + destruct (Rlt_dec x2 hu); [lra|]. rewrite Req_neq_dec in E1, E2 by lra.
      assert (w1 = hu / x1) by congruence. assert (w2 = hu / x2) by congruence. subst.
      apply Rmult_le_compat_l; [lra|]. apply Rinv_le_contravar; lra.
  - rewrite E1, E2. apply xleb_fin. unfold weight in E1, E2. rewrite T in E1, E2.
    destruct R2 as [->|(x2 & -> & P2)].
    { xr. inversion E2. subst. lra. }
    destruct R1 as [->|(x1 & -> & P1)]; [discriminate L|]. apply xleb_fin in L. xr.
    assert (0 <= x1 * x1 <= x2 * x2) by nra.
    rewrite Req_neq_dec in E1, E2 by nra. inversion E1. inversion E2.
    apply Rmult_le_compat_l; [lra|]. apply Rinv_le_contravar; nra.
  - destruct R2 as [->|(x2 & -> & P2)].
    { rewrite (weight_gnc_inf co mu c) by auto. rewrite E1. apply xleb_fin; lra. }
    destruct R1 as [->|(x1 & -> & P1)]; [discriminate L|]. apply xleb_fin in L.
    rewrite !(weight_gnc_fin co mu c) by auto. apply xleb_fin. apply gw_mono; auto.
Qed.

Theorem weights_mono : forall p os r1 r2, good_params p -> residual r1 -> residual r2 -> xleb r1 r2 = true ->
  xleb (weight (rc_run p os) r2) (weight (rc_run p os) r1) = true.
Proof. intros. apply weight_mono; auto. apply good_run; auto. Qed.

(** ** Over the reals *)
Lemma weight_gnc_R (co : RobustCost R) r :
  costType (rc_params co) = GNC_TLS -> weight co r = gw (rc_mu co) (GNCBarc (rc_params co)) r.
Proof.
  intros T. unfold weight. rewrite T. numr. unfold gw, glow, gup, gmid.
  destruct (Rle_dec _ _); [reflexivity|]. destruct (Rle_dec _ _); reflexivity.
Qed.

Theorem gnc_pieces : forall (co : RobustCost R) r, costType (rc_params co) = GNC_TLS ->
  0 < rc_mu co -> 0 < GNCBarc (rc_params co) -> 0 <= r ->
  let mu := rc_mu co in let c := GNCBarc (rc_params co) in
  (weight co r = 1 <-> r * r <= mu / (mu + 1) * (c * c)) /\
  (weight co r = 0 <-> (mu + 1) / mu * (c * c) <= r * r) /\
  (mu / (mu + 1) * (c * c) < r * r < (mu + 1) / mu * (c * c) -> 0 < weight co r < 1) /\
  (0 < r -> weight co r = Rmax 0 (Rmin 1 (c * sqrt (mu * (mu + 1)) / r - mu))).
Proof.
  intros co r T Hmu Hc Hr mu c. rewrite (weight_gnc_R co r T). fold mu c. fold (glow mu c) (gup mu c).
  change (0 < mu) in Hmu. change (0 < c) in Hc. clearbody mu c. clear T.
  assert (LU : glow mu c < gup mu c).
  { unfold glow, gup. apply Rmult_lt_compat_r; [nra|].
    apply Rmult_lt_reg_r with (mu * (mu + 1)); [nra|].
    replace (mu / (mu + 1) * (mu * (mu + 1))) with (mu * mu) by (field; lra).
    replace ((mu + 1) / mu * (mu * (mu + 1))) with ((mu + 1) * (mu + 1)) by (field; lra). nra. }
  assert (Hm : forall x, 0 < x -> gmid mu c x = c * sqrt (mu * (mu + 1)) / x - mu).
  { intros x Hx. unfold gmid. f_equal.
    replace (c * c * mu * (mu + 1) / (x * x)) with ((c / x) * (c / x) * (mu * (mu + 1))) by (field; lra).
    rewrite sqrt_mult; [|apply Rle_0_sqr|nra].
    rewrite sqrt_square; [unfold Rdiv; ring|]. apply Rlt_le, Rdiv_lt_0_compat; auto. }
  assert (Bp : forall x, 0 < x -> (c * sqrt (mu * (mu + 1)) / x) * (c * sqrt (mu * (mu + 1)) / x) * (x * x) = c * c * mu * (mu + 1)).
  { intros x Hx. replace (c * sqrt (mu * (mu + 1)) / x * (c * sqrt (mu * (mu + 1)) / x) * (x * x))
      with (c * c * (sqrt (mu * (mu + 1)) * sqrt (mu * (mu + 1)))) by (field; lra).
    rewrite sqrt_sqrt by (nra). ring. }
  assert (Bpos : forall x, 0 < x -> 0 < c * sqrt (mu * (mu + 1)) / x).
  { intros x Hx. apply Rdiv_lt_0_compat; auto. apply Rmult_lt_0_compat; auto. apply sqrt_lt_R0. nra. }
  destruct (gw_cases mu c Hmu r Hr) as [[A E]|[[A [B E]]|[A [B [E C]]]]]; rewrite E.
  - repeat split; intros; try lra.
    specialize (Bp r H). specialize (Bpos r H). set (k := c * sqrt (mu * (mu + 1)) / r) in *.
    assert (k <= mu). { unfold gup in A.
      assert ((mu + 1) * (c * c) <= r * r * mu).
      { replace ((mu + 1) * (c * c)) with ((mu + 1) / mu * (c * c) * mu) by (field; lra). nra. }
      assert (k * k * (r * r) <= mu * mu * (r * r)) by (rewrite Bp; nra).
      assert (k * k <= mu * mu) by (apply Rmult_le_reg_r with (r * r); nra). nra. }
    rewrite Rmin_right by lra. rewrite Rmax_left by lra. reflexivity.
  - repeat split; intros; try lra.
    specialize (Bp r H). specialize (Bpos r H). set (k := c * sqrt (mu * (mu + 1)) / r) in *.
    assert (mu + 1 <= k). { unfold glow in A.
      assert (r * r * (mu + 1) <= mu * (c * c)).
      { replace (mu * (c * c)) with (mu / (mu + 1) * (c * c) * (mu + 1)) by (field; lra). nra. }
      assert ((mu + 1) * (mu + 1) * (r * r) <= k * k * (r * r)) by (rewrite Bp; nra).
      assert ((mu + 1) * (mu + 1) <= k * k) by (apply Rmult_le_reg_r with (r * r); nra). nra. }
    rewrite Rmin_left by lra. rewrite Rmax_right by lra. reflexivity.
  - repeat split; intros; try lra. rewrite Hm in * by auto.
    rewrite Rmin_right by lra. rewrite Rmax_right by lra. reflexivity.
Qed.

Theorem gnc_minimises : forall (co : RobustCost R) r w, costType (rc_params co) = GNC_TLS ->
  0 < rc_mu co -> 0 <= r -> 0 <= w <= 1 ->
  0 <= weight co r <= 1 /\
  gnc_objective (rc_mu co) (GNCBarc (rc_params co)) r (weight co r) <=
  gnc_objective (rc_mu co) (GNCBarc (rc_params co)) r w.
Proof.
  intros co r w T Hmu Hr Hw. rewrite weight_gnc_R by auto. split; [apply gw_unit; auto|].
  apply gw_objective; auto.
Qed.

(** ** The schedule *)
Lemma type_eqb_refl t : cost_type_eqb t t = true.
Proof. destruct t; reflexivity. Qed.
Lemma u64_small' x : (x < two64)%N -> u64 x = x.
Proof. apply N.mod_small. Qed.

Theorem schedule : forall (p : RobustParams R) (k : nat), costType p = GNC_TLS ->
  (N.of_nat k < two64)%N ->
  rc_mu (rc_updates k (rc_new p)) = GNCInitMu p * GNCMuStep p ^ Nat.min k (N.to_nat (GNCMaxNumIters p)) /\
  rc_iter (rc_updates k (rc_new p)) = N.of_nat k /\
  rc_params (rc_updates k (rc_new p)) = p.
Proof.
  intros p k T. induction k as [|k IH]; intros Hk.
  - simpl. unfold rc_new, rc_reset. simpl. rewrite T. simpl. repeat split; try reflexivity. lra.
  - destruct IH as (A & B & C); [lia|]. cbn [rc_updates]. unfold rc_update. rewrite C, T, type_eqb_refl. cbn [negb].
    rewrite B. rewrite u64_small' by lia. replace (N.of_nat k + 1)%N with (N.of_nat (S k)) by lia.
    destruct (N.ltb_spec (GNCMaxNumIters p) (N.of_nat (S k))); simpl rc_mu; simpl rc_iter; simpl rc_params.
    + repeat split; auto. rewrite A. rewrite !Nat.min_r by lia. reflexivity.
    + repeat split; auto. rewrite A. numr. rewrite !Nat.min_l by lia. simpl. ring.
Qed.

Theorem schedule_monotone : forall (p : RobustParams R) (k j : nat), costType p = GNC_TLS ->
  0 < GNCInitMu p -> 1 <= GNCMuStep p -> (k <= j)%nat -> (N.of_nat j < two64)%N ->
  rc_mu (rc_updates k (rc_new p)) <= rc_mu (rc_updates j (rc_new p)) /\
  ((N.to_nat (GNCMaxNumIters p) <= k)%nat -> rc_mu (rc_updates k (rc_new p)) = rc_mu (rc_updates j (rc_new p))).
Proof.
  intros p k j T Hi Hs Hkj Hj.
  destruct (schedule p k T) as (A & _); [lia|]. destruct (schedule p j T) as (B & _); [lia|].
  rewrite A, B. split.
  - apply Rmult_le_compat_l; [lra|]. apply Rle_pow; [lra|lia].
  - intros. rewrite !Nat.min_r by lia. reflexivity.
Qed.

Theorem reset_initial : forall (p : RobustParams R) os, rc_reset (rc_run p os) = rc_new p \/
  (costType p <> GNC_TLS /\ rc_run p os = rc_new p).
Proof.
  intros p os. destruct (cost_type_eqb (costType p) GNC_TLS) eqn:T.
  - left. assert (costType p = GNC_TLS) by (destruct (costType p); auto; discriminate).
    unfold rc_reset, rc_new. rewrite params_run, H. unfold rc_reset. simpl. rewrite H. reflexivity.
  - right. assert (N : costType p <> GNC_TLS) by (intros Q; rewrite Q in T; discriminate T). split; auto.
    unfold rc_run.
    assert (F : forall o, rc_step (rc_new p) o = rc_new p).
    { intros o. destruct o; simpl.
      - unfold rc_update. rewrite params_new, T. reflexivity.
      - unfold rc_reset at 1. rewrite params_new. destruct (costType p); auto; discriminate T. }
    induction os as [|o os IH]; simpl; auto. rewrite F. apply IH.
Qed.

(** The iteration counter is a 64-bit integer; after 2^64 calls it is 0 again. *)
Lemma iter_mod (p : RobustParams R) : costType p = GNC_TLS -> forall k : nat,
  rc_iter (rc_updates k (rc_new p)) = u64 (N.of_nat k) /\ rc_params (rc_updates k (rc_new p)) = p.
Proof.
  intros T. induction k as [|k [A B]].
  - split; [|apply params_new]. unfold rc_new, rc_reset; simpl. rewrite T. reflexivity.
  - cbn [rc_updates]. unfold rc_update. rewrite B, T, type_eqb_refl. cbn [negb]. rewrite A.
    replace (u64 (u64 (N.of_nat k) + 1)) with (u64 (N.of_nat (S k))).
    2:{ unfold u64. rewrite N.add_mod_idemp_l by discriminate. f_equal. lia. }
    destruct (N.ltb _ _); simpl; auto.
Qed.

Lemma nat_of (x : N) : exists k : nat, N.of_nat k = x.
Proof. exists (N.to_nat x). apply N2Nat.id. Qed.

Theorem schedule_wraps : forall p : RobustParams R, costType p = GNC_TLS -> (1 <= GNCMaxNumIters p)%N ->
  0 < GNCInitMu p -> 1 < GNCMuStep p ->
  exists k : nat, N.of_nat k = two64 /\ rc_mu (rc_updates (S k) (rc_new p)) = GNCMuStep p * rc_mu (rc_updates k (rc_new p)).
Proof.
  intros p T M _ _. destruct (nat_of two64) as [k E]. exists k. split; [exact E|].
  destruct (iter_mod p T k) as [A B]. rewrite E in A.
  cbn [rc_updates]. unfold rc_update. rewrite B, T, type_eqb_refl, A. cbn [negb].
  destruct (N.ltb_spec (GNCMaxNumIters p) (u64 (u64 two64 + 1))) as [L|L]; [|reflexivity].
  replace (u64 (u64 two64 + 1)) with 1%N in L by (vm_compute; reflexivity). lia.
Qed.

(** ** Eventually GNC classifies as TLS does. *)
Lemma gw_eventually_in mu c r : 0 < mu -> 0 <= r -> r < c -> r * r / (c * c - r * r) <= mu -> gw mu c r = 1.
Proof.
  intros Hmu Hr Hc Hm. assert (P : 0 < c * c - r * r) by nra.
  assert (A : r * r <= mu * (c * c - r * r)).
  { replace (r * r) with (r * r / (c * c - r * r) * (c * c - r * r)) at 1 by (field; lra). nra. }
  assert (r * r <= glow mu c).
  { unfold glow. apply Rmult_le_reg_r with (mu + 1); [lra|].
    replace (mu / (mu + 1) * (c * c) * (mu + 1)) with (mu * (c * c)) by (field; lra). nra. }
  destruct (gw_cases mu c Hmu r Hr) as [[U E]|[[U [B E]]|[U [B [E C]]]]]; auto; [|lra].
  exfalso. assert (gup mu c > c * c).
  { unfold gup. apply Rmult_lt_reg_r with mu; [lra|]. replace ((mu + 1) / mu * (c * c) * mu) with ((mu + 1) * (c * c)) by (field; lra). nra. }
  nra.
Qed.
Lemma gw_eventually_out mu c r : 0 < mu -> 0 < c -> c < r -> c * c / (r * r - c * c) <= mu -> gw mu c r = 0.
Proof.
  intros Hmu Hc Hr Hm. assert (P : 0 < r * r - c * c) by nra.
  assert (A : c * c <= mu * (r * r - c * c)).
  { replace (c * c) with (c * c / (r * r - c * c) * (r * r - c * c)) at 1 by (field; lra). nra. }
  assert (gup mu c <= r * r).
  { unfold gup. apply Rmult_le_reg_r with mu; [lra|].
    replace ((mu + 1) / mu * (c * c) * mu) with ((mu + 1) * (c * c)) by (field; lra). nra. }
  unfold gw. destruct (Rle_dec _ _); [reflexivity|lra].
Qed.

Lemma pow_above a s B : 0 < a -> 1 < s -> exists K : nat, forall k, (K <= k)%nat -> B <= a * s ^ k.
Proof.
  intros Ha Hs. assert (Hs' : Rabs s > 1) by (rewrite Rabs_right; lra).
  destruct (Pow_x_infinity s Hs' (B / a)) as [K HK]. exists K. intros k Hk.
  specialize (HK k Hk). rewrite Rabs_right in HK by (apply Rle_ge, pow_le; lra).
  replace B with (a * (B / a)) by (field; lra). apply Rmult_le_compat_l; lra.
Qed.

Theorem eventually_tls : forall c mu0 s r, 0 < c -> 0 < mu0 -> 1 < s -> 0 <= r -> r <> c ->
  exists K : nat, forall (p : RobustParams R) (k : nat),
    costType p = GNC_TLS -> GNCBarc p = c -> GNCInitMu p = mu0 -> GNCMuStep p = s ->
    (K <= N.to_nat (GNCMaxNumIters p))%nat -> (K <= k)%nat -> (N.of_nat k < two64)%N ->
    weight (rc_updates k (rc_new p)) r = if Rlt_dec r c then 1 else 0.
Proof.
  intros c mu0 s r Hc Hm Hs Hr Hne.
  destruct (pow_above mu0 s (if Rlt_dec r c then r * r / (c * c - r * r) else c * c / (r * r - c * c)) Hm Hs) as [K HK].
  exists K. intros p k T EB EI ES HM Hk Hb.
  destruct (schedule p k T Hb) as (A & _ & P). rewrite weight_gnc_R by (rewrite P; auto).
  rewrite P, A, EB, EI, ES. set (e := Nat.min k _). assert (Ke : (K <= e)%nat) by (unfold e; lia).
  specialize (HK e Ke). assert (0 < mu0 * s ^ e) by (apply Rmult_lt_0_compat; auto; apply pow_lt; lra).
  destruct (Rlt_dec r c).
  - apply gw_eventually_in; auto.
  - apply gw_eventually_out; auto; lra.
Qed.

(** As mu grows the undecided interval shrinks, on both sides, around c^2. *)
Theorem band_shrinks : forall c mu mu', 0 < c -> 0 < mu -> mu < mu' ->
  mu / (mu + 1) * (c * c) < mu' / (mu' + 1) * (c * c) /\
  mu' / (mu' + 1) * (c * c) < c * c < (mu' + 1) / mu' * (c * c) /\
  (mu' + 1) / mu' * (c * c) < (mu + 1) / mu * (c * c).
Proof.
  intros c mu mu' Hc Hm Hlt. assert (P : 0 < c * c) by nra. repeat split.
  - apply Rmult_lt_compat_r; auto. apply Rmult_lt_reg_r with ((mu + 1) * (mu' + 1)); [nra|].
    replace (mu / (mu + 1) * ((mu + 1) * (mu' + 1))) with (mu * (mu' + 1)) by (field; lra).
    replace (mu' / (mu' + 1) * ((mu + 1) * (mu' + 1))) with (mu' * (mu + 1)) by (field; lra). lra.
  - rewrite <- (Rmult_1_l (c * c)) at 2. apply Rmult_lt_compat_r; auto.
    apply Rmult_lt_reg_r with (mu' + 1); [lra|]. replace (mu' / (mu' + 1) * (mu' + 1)) with mu' by (field; lra). lra.
  - rewrite <- (Rmult_1_l (c * c)) at 1. apply Rmult_lt_compat_r; auto.
    apply Rmult_lt_reg_r with mu'; [lra|]. replace ((mu' + 1) / mu' * mu') with (mu' + 1) by (field; lra). lra.
  - apply Rmult_lt_compat_r; auto. apply Rmult_lt_reg_r with (mu * mu'); [nra|].
    replace ((mu' + 1) / mu' * (mu * mu')) with ((mu' + 1) * mu) by (field; lra).
    replace ((mu + 1) / mu * (mu * mu')) with ((mu + 1) * mu') by (field; lra). lra.
Qed.

(** ** Quadratic majorisation of the loss *)
Lemma gloss mu c r : 0 < mu -> 0 < c -> 0 <= r ->
  (if Rle_dec (r * r) (mu / (mu + 1) * (c * c)) then r * r / 2
   else if Rle_dec ((mu + 1) / mu * (c * c)) (r * r) then c * c / 2
   else (2 * (c * sqrt (mu * (mu + 1))) * Rabs r - mu * (c * c + r * r)) / 2) = gnc_objective mu c r (gw mu c r) / 2.
Proof.
  intros Hmu Hc Hr. fold (glow mu c) (gup mu c).
  assert (LU : glow mu c < gup mu c).
  { destruct (band_shrinks c mu (mu + 1) Hc Hmu) as (A & (B & B') & C); [lra|]. unfold glow, gup. lra. }
  unfold gnc_objective. f_equal. destruct (gw_cases mu c Hmu r Hr) as [[A E]|[[A [B E]]|[A [B [E C]]]]]; rewrite E.
  - destruct (Rle_dec (r * r) (glow mu c)); [lra|]. destruct (Rle_dec _ _); [|lra]. f_equal. field. lra.
  - destruct (Rle_dec _ _); [|lra]. f_equal. field. lra.
  - destruct (Rle_dec _ _); [lra|]. destruct (Rle_dec _ _); [lra|]. f_equal.
    rewrite Rabs_right by lra. set (k := c * sqrt (mu * (mu + 1))).
    assert (Kp : 0 < k). { apply Rmult_lt_0_compat; auto. apply sqrt_lt_R0. nra. }
    assert (Hm : gmid mu c r = k / r - mu).
    { unfold gmid. f_equal.
      replace (c * c * mu * (mu + 1) / (r * r)) with ((c / r) * (c / r) * (mu * (mu + 1))) by (field; lra).
      rewrite sqrt_mult; [|apply Rle_0_sqr|nra].
      rewrite sqrt_square; [unfold k, Rdiv; ring|]. apply Rlt_le, Rdiv_lt_0_compat; auto. }
    rewrite Hm.
    assert (K2 : k * k = c * c * (mu * (mu + 1))).
    { unfold k. rewrite <- (sqrt_sqrt (mu * (mu + 1))) at 3 by nra. ring. }
    replace (mu + (k / r - mu)) with (k / r) by ring.
    replace (mu * (1 - (k / r - mu)) / (k / r) * (c * c)) with (c * c * (mu * (mu + 1)) * r / k - mu * (c * c)) by (field; lra).
    rewrite <- K2. field. lra.
Qed.

Theorem majorised : forall p mu it r r', pos_params p mu -> 0 <= r -> 0 <= r' -> (costType p = L1 -> 0 < r) ->
  loss p mu r' <= loss p mu r + weight (mkRobustCost p it mu) r / 2 * (r' * r' - r * r).
Proof.
  intros p mu it r r' (Hh & Ht & Hb & Hm) Hr Hr' HL1. unfold loss.
  destruct (costType p) eqn:T.
  - unfold weight; simpl; rewrite T. lra.
  - unfold weight; simpl; rewrite T. specialize (HL1 eq_refl). rewrite !Rabs_right by lra.
    apply Rmult_le_reg_r with (2 * r); [lra|].
    replace ((r + 1 / r / 2 * (r' * r' - r * r)) * (2 * r)) with (r * r + r' * r') by (field; lra).
    pose proof (Rle_0_sqr (r - r')) as Sq. unfold Rsqr in Sq. lra.
  - unfold weight; simpl; rewrite T. set (c := TLSThreshold p) in *. clearbody c. destruct (Rlt_dec r c).
    + pose proof (Rmin_l (r' * r') (c * c)). rewrite (Rmin_left (r * r)) by nra. lra.
    + pose proof (Rmin_r (r' * r') (c * c)). rewrite (Rmin_right (r * r)) by nra. lra.
  - unfold weight; simpl; rewrite T. set (c := HuberThreshold p) in *. clearbody c. rewrite !Rabs_right by lra.
    destruct (Rlt_dec r c).
    + destruct (Rle_dec r c); [|lra]. destruct (Rle_dec r' c); nra.
    + assert (E : c / r / 2 * (r' * r' - r * r) = c * (r' * r') / (2 * r) - c * r / 2) by (field; lra).
      rewrite E. assert (Q : c * (2 * r * r' - r * r) / (2 * r) <= c * (r' * r') / (2 * r)).
      { apply Rmult_le_compat_r; [apply Rlt_le, Rinv_0_lt_compat; lra|]. apply Rmult_le_compat_l; [lra|]. pose proof (Rle_0_sqr (r - r')) as Sq. unfold Rsqr in Sq. lra. }
      replace (c * (2 * r * r' - r * r) / (2 * r)) with (c * r' - c * r / 2) in Q by (field; lra).
      assert (LR : (if Rle_dec r c then r * r / 2 else c * r - c * c / 2) = c * r - c * c / 2).
      { destruct (Rle_dec r c); [|reflexivity]. assert (r = c) by lra. subst r. field. }
      rewrite LR. destruct (Rle_dec r' c); [|lra].
      (* r' <= c <= r *)
      assert (H1 : r' * r' / 2 <= c * r' - c * c / 2 + (c - r') * (c - r') / 2) by (apply Req_le; field).
      assert (H2 : c * (r' * r') / (2 * r) = c * (r - r') * (r - r') / (2 * r) + c * r' - c * r / 2) by (field; lra).
      rewrite H2.
      assert (H3 : (c - r') * (c - r') / 2 <= c * (r - r') * (r - r') / (2 * r)).
      { apply Rmult_le_reg_r with (2 * r); [lra|].
        replace ((c - r') * (c - r') / 2 * (2 * r)) with ((c - r') * (c - r') * r) by field.
        replace (c * (r - r') * (r - r') / (2 * r) * (2 * r)) with (c * (r - r') * (r - r')) by (field; lra).
        (* c (r-r')^2 - r (c-r')^2 = (r - c)(rc - r'^2) *)
        assert ((r - c) * (r * c - r' * r') >= 0). { assert (0 <= r * c - r' * r') by nra. nra. }
        nra. }
      lra.
  - unfold weight; simpl; rewrite T. set (s := r * r). set (s' := r' * r').
    assert (0 <= s) by apply Rle_0_sqr. assert (0 <= s') by apply Rle_0_sqr. clearbody s s'.
    assert (Q : s' / (1 + s') <= s / (1 + s) + 1 / ((1 + s) * (1 + s)) * (s' - s)).
    { apply Rmult_le_reg_r with ((1 + s') * ((1 + s) * (1 + s))); [nra|].
      replace (s' / (1 + s') * ((1 + s') * ((1 + s) * (1 + s)))) with (s' * ((1 + s) * (1 + s))) by (field; lra).
      replace ((s / (1 + s) + 1 / ((1 + s) * (1 + s)) * (s' - s)) * ((1 + s') * ((1 + s) * (1 + s))))
        with (s * (1 + s) * (1 + s') + (s' - s) * (1 + s')) by (field; lra).
      pose proof (Rle_0_sqr (s' - s)) as Sq. unfold Rsqr in Sq. nra. }
    lra.
  - rewrite !gloss by auto. rewrite weight_gnc_R by auto. cbn [rc_mu rc_params].
    pose proof (gw_objective mu (GNCBarc p) Hm r' (gw mu (GNCBarc p) r) Hr' (gw_unit mu _ Hm r Hr)) as O.
    unfold gnc_objective in *. lra.
Qed.

(** Reducing the weighted sum of squares reduces the robust cost. *)
Theorem irls_descent : forall p mu it (rs : list (R * R)), pos_params p mu ->
  (forall a, In a rs -> 0 <= fst a /\ 0 <= snd a /\ (costType p = L1 -> 0 < fst a)) ->
  nsumL (fun a => weight (mkRobustCost p it mu) (fst a) * (snd a * snd a)) rs <=
  nsumL (fun a => weight (mkRobustCost p it mu) (fst a) * (fst a * fst a)) rs ->
  nsumL (fun a => loss p mu (snd a)) rs <= nsumL (fun a => loss p mu (fst a)) rs.
Proof.
  intros p mu it rs Hp Hr D.
  assert (Q : nsumL (fun a => loss p mu (snd a)) rs <= nsumL (fun a => loss p mu (fst a) +
     / 2 * (weight (mkRobustCost p it mu) (fst a) * (snd a * snd a) - weight (mkRobustCost p it mu) (fst a) * (fst a * fst a))) rs).
  { clear D. induction rs as [|a rs IH]; [rewrite !rsumL_nil; lra|]. rewrite !rsumL_cons.
    assert (A : loss p mu (snd a) <= loss p mu (fst a) + / 2 * (weight (mkRobustCost p it mu) (fst a) * (snd a * snd a) - weight (mkRobustCost p it mu) (fst a) * (fst a * fst a))).
    { destruct (Hr a (or_introl eq_refl)) as (H1 & H2 & H3).
      pose proof (majorised p mu it (fst a) (snd a) Hp H1 H2 H3). lra. }
    assert (B := IH (fun b Hb => Hr b (or_intror Hb))). lra. }
  rewrite rsumL_add, rsumL_scal, rsumL_sub in Q. lra.
Qed.
