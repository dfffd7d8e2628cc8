(** The quantile threshold in the averaging of a neighbour's frame, and examples. *)
From Coq Require Import List NArith Bool Arith Sorted Reals Lra.
From Verif Require Import Base SMap Num RSum Det ModelTypes ModelPoseGraph ModelProblem ModelRobust ModelPoses ModelSolver ModelAgent ModelAlign
  SpecPoseGraph SpecCost SpecSolver SpecAgent SpecFrames SpecAlign ProofsAngle ProofsAlign SpecQuantile ProofsQuantile.
Import ListNotations.
Local Open Scope R_scope.

Lemma mismatch_nonneg d th t W : 0 <= mismatch d th t W.
Proof.
  unfold mismatch. assert (0 <= sin (th / 2) * sin (th / 2)) by nra.
  assert (0 <= rsum d (fun i => sq (t i O - W i d))) by (apply rsum_nonneg; intros i _; exact (Rle_0_sqr (t i O - W i d))). nra.
Qed.
Lemma one_stage_quantile : forall chi2inv, chi2inv_ok chi2inv ->
  forall x id p os (a : Agent R) k dict Tn T YL Ws, areach x id p os a ->
  let d := p_d p in let ms := evidence id k dict (pg_shared (a_pg a)) in
  (d = 2 \/ d = 3)%nat -> a_TLocal a = Some T -> a_YLift a = Some YL ->
  hears (x_minv x) id k (p_r p) d (pg_shared (a_pg a)) YL T Tn dict -> candidates id d Tn T ms Ws ->
  svd_sized (x_svd_full x) d -> averages_ok (x_svd_full x) d Ws -> det_ok (x_det x) d -> div_ok (x_mudiv x) -> div_zero_big (x_mudiv x) ->
  exists cbar o, errorThresholdAtQuantile chi2inv (9 / 10) 3 = Ok cbar /\ ag_oneStage x cbar a k dict = Ok o /\
  (ms <> [] -> exists Q t used, rotation d Q /\ StronglySorted lt used /\
    (forall i, In i used -> (i < length ms)%nat /\ exists th m, angle d Q (pick Ws i) th /\ mass_upto (mismatch d th t (pick Ws i)) m /\ m < 9 / 10) /\
    match o with
    | None => (N.of_nat (length used) < p_mininl p)%N
    | Some P => (p_mininl p <= N.of_nat (length used))%N /\ rigid d P /\
        (forall i j, (i < d)%nat -> (j < d)%nat -> pa_X P i j = Q i j) /\ (forall i, (i < d)%nat -> pa_X P i d = t i O)
    end).
Proof.
  intros chi2inv HC x id p os a k dict Tn T YL Ws Ra d ms Hd HT HY Hh Hc H1 H2 H3 H4 H5.
  destruct (thr_09 chi2inv HC) as (cbar & E & B). assert (Hcb : 0 < cbar) by lra.
  destruct (one_stage x id p os a k dict Tn T YL Ws cbar Ra Hd HT HY Hh Hc Hcb H1 H2 H3 H4 H5) as (o & Eo & _ & P & _).
  exists cbar, o. split; auto. split; auto. intros Hm. destruct (P Hm) as (Q & t & used & HQ & Hs & Hu & Hmatch).
  exists Q, t, used. split; auto. split; auto. split; auto. intros i Hi. destruct (Hu i Hi) as (Hl & th & Ha & Hlt). split; auto.
  destruct (below_mass chi2inv HC (9 / 10) cbar (mismatch d th t (pick Ws i)) ltac:(lra) E (mismatch_nonneg _ _ _ _) Hlt) as (m & M & L).
  exists th, m. auto.
Qed.

(** ** Examples *)
Definition qparams (c : CostType) (t : R) : RobustParams R := mkRobustParams c 20 t 2 4 3 t.
Lemma ex_defined : errorThresholdAtQuantile some_chi2inv (9 / 10) 2 = Abort /\ errorThresholdAtQuantile some_chi2inv 0 3 = Abort /\
  exists t, errorThresholdAtQuantile some_chi2inv (9 / 10) 3 = Ok t.
Proof.
  split; [apply thr_failure; intros [H _]; discriminate|]. split; [apply thr_failure; lra|]. apply thr_defined. split; [reflexivity|lra].
Qed.
Lemma ex_mono : exists t t', errorThresholdAtQuantile some_chi2inv (9 / 10) 3 = Ok t /\ errorThresholdAtQuantile some_chi2inv 1 3 = Ok t' /\ t < t'.
Proof.
  destruct (thr_09 _ some_chi2inv_ok) as (t & E & B). destruct (proj2 (thr_defined some_chi2inv 1 3)) as (t' & E'); [split; [reflexivity|lra]|].
  exists t, t'. split; auto. split; auto. apply (thr_mono _ some_chi2inv_ok (9 / 10) 1 t t'); auto; lra.
Qed.
Lemma ex_dimension : exists t, errorThresholdAtQuantile some_chi2inv (9 / 10) 4294967299 = Ok t.
Proof. apply thr_defined. split; [reflexivity|lra]. Qed.
(** mu is 4: the scale is the square root of 5/4. *)
Lemma ex_weights : exists t, errorThresholdAtQuantile some_chi2inv (9 / 10) 3 = Ok t /\
  weight (rc_new (qparams TLS t)) 3 = 1 /\ weight (rc_new (qparams TLS t)) 4 = 0 /\
  weight (rc_new (qparams GNC_TLS t)) 2 = 1 /\ 0 < weight (rc_new (qparams GNC_TLS t)) 3 < 1 /\ weight (rc_new (qparams GNC_TLS t)) 5 = 0.
Proof.
  destruct (thr_09 _ some_chi2inv_ok) as (t & E & B). exists t. split; auto.
  cbn [weight rc_new rc_reset qparams rc_params costType TLSThreshold GNCBarc rc_mu GNCInitMu nltb nleb NumR n0 n1 nmul ndiv nadd nsub nsqrt].
  destruct (Rlt_dec 3 t); [|lra]. destruct (Rlt_dec 4 t); [lra|]. split; auto. split; auto.
  assert (T : 99 / 10 < t * t < 1103 / 100) by nra.
  destruct (Rle_dec ((4 + 1) / 4 * (t * t)) (2 * 2)); [lra|]. destruct (Rle_dec (2 * 2) (4 / (4 + 1) * (t * t))); [|lra]. split; auto.
  destruct (Rle_dec ((4 + 1) / 4 * (t * t)) (3 * 3)); [lra|]. destruct (Rle_dec (3 * 3) (4 / (4 + 1) * (t * t))); [lra|]. split.
  - set (v := t * t * 4 * (4 + 1) / (3 * 3)). assert (V : 16 < v < 25) by (unfold v; lra).
    assert (A : 4 < sqrt v) by (rewrite <- (sqrt_square 4) by lra; apply sqrt_lt_1; lra).
    assert (C : sqrt v < 5) by (rewrite <- (sqrt_square 5) by lra; apply sqrt_lt_1; lra). lra.
  - destruct (Rle_dec ((4 + 1) / 4 * (t * t)) (5 * 5)); [reflexivity|lra].
Qed.
