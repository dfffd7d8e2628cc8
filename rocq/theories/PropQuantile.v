(** C63: the error threshold at a quantile of the chi-squared distribution. *)
From Coq Require Import List NArith Bool Arith Sorted Reals Lra.
From Verif Require Import Base SMap Num RSum Det ModelTypes ModelPoseGraph ModelProblem ModelRobust ModelPoses ModelSolver ModelAgent ModelAlign
  SpecPoseGraph SpecCost SpecSolver SpecAgent SpecFrames SpecAlign SpecQuantile ProofsQuantile ProofsQuantileUse.
Import ListNotations.
Local Open Scope R_scope.

(** The density is that of a distribution: every mass is below 1, and every value
    strictly between 0 and 1 is the mass below exactly one point. *)
Theorem C63_distribution : (forall x, 0 <= x -> exists p, mass_upto x p /\ p < 1 /\ forall p', mass_upto x p' -> p' = p) /\
  forall q, 0 < q < 1 -> exists x, 0 < x /\ mass_upto x q /\ forall x', 0 <= x' -> mass_upto x' q -> x' = x.
Proof. exact distribution. Qed.
Print Assumptions C63_distribution.

(** So the contract of the external quantile function can be met. *)
Example C63_contract_example : chi2inv_ok some_chi2inv.
Proof. exact some_chi2inv_ok. Qed.

(** When the function returns, and that it aborts otherwise. *)
Theorem C63_defined : forall chi2inv q dim,
  ((exists t, errorThresholdAtQuantile chi2inv q dim = Ok t) <-> (dim mod 4294967296 = 3)%N /\ 0 < q) /\
  (~ ((dim mod 4294967296 = 3)%N /\ 0 < q) -> errorThresholdAtQuantile chi2inv q dim = Abort).
Proof. exact (fun c q dim => conj (thr_defined c q dim) (thr_failure c q dim)). Qed.
Print Assumptions C63_defined.

Example C63_defined_example : errorThresholdAtQuantile some_chi2inv (9 / 10) 2 = Abort /\ errorThresholdAtQuantile some_chi2inv 0 3 = Abort /\
  exists t, errorThresholdAtQuantile some_chi2inv (9 / 10) 3 = Ok t.
Proof. exact ex_defined. Qed.

(** The threshold is the one number whose square has the mass [q] below it. *)
Theorem C63_threshold : forall chi2inv, chi2inv_ok chi2inv -> forall q t, 0 < q < 1 -> errorThresholdAtQuantile chi2inv q 3 = Ok t ->
  0 < t /\ mass_upto (t * t) q /\ forall t', 0 <= t' -> mass_upto (t' * t') q -> t' = t.
Proof. exact thr_quantile. Qed.
Print Assumptions C63_threshold.

(** The value the agents use, from the density alone. *)
Theorem C63_agents : forall chi2inv, chi2inv_ok chi2inv ->
  exists t, errorThresholdAtQuantile chi2inv (9 / 10) 3 = Ok t /\ 316 / 100 < t < 332 / 100.
Proof. exact thr_09. Qed.
Print Assumptions C63_agents.

Example C63_agents_example : exists t, errorThresholdAtQuantile some_chi2inv (9 / 10) 3 = Ok t /\ 316 / 100 < t < 332 / 100.
Proof. exact (thr_09 some_chi2inv some_chi2inv_ok). Qed.

(** It grows with the quantile, up to the last double below 1 and from there to 1 and beyond. *)
Theorem C63_monotone : forall chi2inv, chi2inv_ok chi2inv -> forall q q' t t', q <= q' -> q <= 1 - / 9007199254740992 ->
  q' <= 1 - / 9007199254740992 \/ 1 <= q' ->
  errorThresholdAtQuantile chi2inv q 3 = Ok t -> errorThresholdAtQuantile chi2inv q' 3 = Ok t' -> t <= t' /\ (q < q' -> t < t').
Proof. exact thr_mono. Qed.
Print Assumptions C63_monotone.

Example C63_monotone_example : exists t t', errorThresholdAtQuantile some_chi2inv (9 / 10) 3 = Ok t /\
  errorThresholdAtQuantile some_chi2inv 1 3 = Ok t' /\ t < t'.
Proof. exact ex_mono. Qed.

(** Truncated least squares with this threshold keeps the fraction [q] of smallest residuals. *)
Theorem C63_tls : forall chi2inv, chi2inv_ok chi2inv -> forall q t p r c, 0 < q < 1 -> errorThresholdAtQuantile chi2inv q 3 = Ok t ->
  costType p = TLS -> TLSThreshold p = t -> rc_params c = p -> 0 <= r ->
  (within q r -> weight c r = 1) /\ (~ within q r -> weight c r = 0).
Proof. exact tls_weight. Qed.
Print Assumptions C63_tls.

(** Graduated non-convexity rejects and keeps outright the residuals that lie beyond
    and before the quantile when scaled by the square root of (mu+1)/mu. *)
Theorem C63_gnc : forall chi2inv, chi2inv_ok chi2inv -> forall q t p r c, 0 < q < 1 -> errorThresholdAtQuantile chi2inv q 3 = Ok t ->
  costType p = GNC_TLS -> GNCBarc p = t -> rc_params c = p -> 0 <= r -> 0 < rc_mu c ->
  let s := sqrt ((rc_mu c + 1) / rc_mu c) in
  (weight c r = 0 <-> ~ within q (r / s)) /\ (weight c r = 1 <-> upto q (r * s)).
Proof. exact gnc_weight. Qed.
Print Assumptions C63_gnc.

Example C63_weights_example : exists t, errorThresholdAtQuantile some_chi2inv (9 / 10) 3 = Ok t /\
  weight (rc_new (qparams TLS t)) 3 = 1 /\ weight (rc_new (qparams TLS t)) 4 = 0 /\
  weight (rc_new (qparams GNC_TLS t)) 2 = 1 /\ 0 < weight (rc_new (qparams GNC_TLS t)) 3 < 1 /\ weight (rc_new (qparams GNC_TLS t)) 5 = 0.
Proof. exact ex_weights. Qed.

(** The candidates that [computeRobustNeighborTransform] uses all have a squared
    residual of mass below 0.9. *)
Theorem C63_one_stage : forall chi2inv, chi2inv_ok chi2inv ->
  forall x id p os (a : Agent R) k dict Tn T YL Ws, areach x id p os a ->
  let d := p_d p in let ms := evidence id k dict (pg_shared (a_pg a)) in
  (d = 2 \/ d = 3)%nat -> a_TLocal a = Some T -> a_YLift a = Some YL ->
  hears (x_minv x) id k (p_r p) d (pg_shared (a_pg a)) YL T Tn dict -> candidates id d Tn T ms Ws ->
  svd_sized (x_svd_full x) d -> averages_ok (x_svd_full x) d Ws -> det_ok (x_det x) d -> div_ok (x_mudiv x) -> div_zero_big (x_mudiv x) ->
  exists cbar o, errorThresholdAtQuantile chi2inv (9 / 10) 3 = Ok cbar /\ ag_oneStage x cbar a k dict = Ok o /\
  (ms <> [] -> exists Q t used, rotation d Q /\ StronglySorted lt used /\
    (forall i, In i used -> (i < length ms)%nat /\ exists th m, angle d Q (pick Ws i) th /\ mass_upto (mismatch d th t (pick Ws i)) m /\ m < 9 / 10) /\
    match o with
    | None => (N.of_nat (length used) < p_mininl p)%N
    | Some P => (p_mininl p <= N.of_nat (length used))%N /\ rigid d P /\
        (forall i j, (i < d)%nat -> (j < d)%nat -> pa_X P i j = Q i j) /\ (forall i, (i < d)%nat -> pa_X P i d = t i O)
    end).
Proof. exact one_stage_quantile. Qed.
Print Assumptions C63_one_stage.

(** ** Findings *)

(** A quantile of 1 or more asks to keep everything, yet residuals from 100000 on are rejected. *)
Theorem C63_keep_all_refuted : forall chi2inv q t p c r, 1 <= q -> errorThresholdAtQuantile chi2inv q 3 = Ok t ->
  costType p = TLS -> TLSThreshold p = t -> rc_params c = p -> 100000 <= r -> weight c r = 0.
Proof. exact one_rejects. Qed.
Print Assumptions C63_keep_all_refuted.

(** As a function on the reals the threshold is not monotone: just below 1 it exceeds the value at 1. *)
Theorem C63_monotone_refuted : exists q t t', q < 1 /\ errorThresholdAtQuantile some_chi2inv q 3 = Ok t /\
  errorThresholdAtQuantile some_chi2inv 1 3 = Ok t' /\ t' < t.
Proof. exact one_refuted. Qed.
Print Assumptions C63_monotone_refuted.

(** The check of the dimension sees its low 32 bits only. *)
Theorem C63_dimension_refuted : exists t, errorThresholdAtQuantile some_chi2inv (9 / 10) 4294967299 = Ok t.
Proof. exact ex_dimension. Qed.
Print Assumptions C63_dimension_refuted.
