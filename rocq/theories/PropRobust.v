(** Properties C17-C19, C51: robust costs. *)
From Coq Require Import List NArith Reals.
From Coq Require PrimFloat.
From Verif Require Import Base Num RSum NumFloat ModelRobust SpecRobust ProofsRobust ProofsRobustEx.
Import ListNotations.
Local Open Scope R_scope.

(** ** C17 *)
Theorem C17_weights_in_unit : forall p os r, good_params p -> costType p <> L1 -> residual r ->
  in_unit (weight (rc_run p os) r).
Proof. exact weights_unit. Qed.
Print Assumptions C17_weights_in_unit.

Example C17_example : good_params (default_robust GNC_TLS) /\ costType (@default_robust XR _ GNC_TLS) <> L1 /\
  residual (Fin 7) /\ residual PInf.
Proof. exact ex_unit. Qed.

(** L1 is bounded by 1 exactly from residual 1 on. *)
Theorem C17_L1_refuted : forall p os x, costType p = L1 ->
  (1 <= x -> in_unit (weight (rc_run p os) (Fin x))) /\
  (0 < x < 1 -> exists w, weight (rc_run p os) (Fin x) = Fin w /\ 1 < w) /\
  weight (rc_run p os) (Fin 0) = PInf.
Proof. exact weights_L1. Qed.
Print Assumptions C17_L1_refuted.

(** With binary64 rounding the GNC weight is not clamped: it can exceed 1. *)
Theorem C17_float_refuted : exists (c : RobustCost PrimFloat.float) (r : PrimFloat.float),
  costType (rc_params c) = GNC_TLS /\ PrimFloat.ltb PrimFloat.zero (rc_mu c) = true /\ PrimFloat.ltb PrimFloat.zero (GNCBarc (rc_params c)) = true /\
  PrimFloat.leb PrimFloat.zero r = true /\ PrimFloat.ltb PrimFloat.one (weight c r) = true.
Proof. exact float_above_one. Qed.
Print Assumptions C17_float_refuted.

(** ** C18 *)
Theorem C18_weights_monotone : forall p os r1 r2, good_params p -> residual r1 -> residual r2 -> xleb r1 r2 = true ->
  xleb (weight (rc_run p os) r2) (weight (rc_run p os) r1) = true.
Proof. exact weights_mono. Qed.
Print Assumptions C18_weights_monotone.

Example C18_example : good_params (default_robust L1) /\ residual (Fin 0) /\ residual (Fin 7) /\ xleb (Fin 0) (Fin 7) = true.
Proof. exact ex_mono. Qed.

Theorem C18_gnc_pieces : forall (co : RobustCost R) r, costType (rc_params co) = GNC_TLS ->
  0 < rc_mu co -> 0 < GNCBarc (rc_params co) -> 0 <= r ->
  let mu := rc_mu co in let c := GNCBarc (rc_params co) in
  (weight co r = 1 <-> r * r <= mu / (mu + 1) * (c * c)) /\
  (weight co r = 0 <-> (mu + 1) / mu * (c * c) <= r * r) /\
  (mu / (mu + 1) * (c * c) < r * r < (mu + 1) / mu * (c * c) -> 0 < weight co r < 1) /\
  (0 < r -> weight co r = Rmax 0 (Rmin 1 (c * sqrt (mu * (mu + 1)) / r - mu))).
Proof. exact gnc_pieces. Qed.
Print Assumptions C18_gnc_pieces.

Example C18_gnc_example : costType (rc_params exR_gnc) = GNC_TLS /\ 0 < rc_mu exR_gnc /\ 0 < GNCBarc (rc_params exR_gnc) /\
  0 < weight exR_gnc 5 < 1 /\ weight exR_gnc 3 = 1 /\ weight exR_gnc 8 = 0.
Proof. exact ex_pieces. Qed.

(** ** C19 *)
Theorem C19_schedule : forall (p : RobustParams R) (k : nat), costType p = GNC_TLS -> (N.of_nat k < two64)%N ->
  rc_mu (rc_updates k (rc_new p)) = GNCInitMu p * GNCMuStep p ^ Nat.min k (N.to_nat (GNCMaxNumIters p)) /\
  rc_iter (rc_updates k (rc_new p)) = N.of_nat k /\
  rc_params (rc_updates k (rc_new p)) = p.
Proof. exact schedule. Qed.
Print Assumptions C19_schedule.

Theorem C19_schedule_monotone : forall (p : RobustParams R) (k j : nat), costType p = GNC_TLS ->
  0 < GNCInitMu p -> 1 <= GNCMuStep p -> (k <= j)%nat -> (N.of_nat j < two64)%N ->
  rc_mu (rc_updates k (rc_new p)) <= rc_mu (rc_updates j (rc_new p)) /\
  ((N.to_nat (GNCMaxNumIters p) <= k)%nat -> rc_mu (rc_updates k (rc_new p)) = rc_mu (rc_updates j (rc_new p))).
Proof. exact schedule_monotone. Qed.
Print Assumptions C19_schedule_monotone.

Theorem C19_reset : forall (p : RobustParams R) os, rc_reset (rc_run p os) = rc_new p \/
  (costType p <> GNC_TLS /\ rc_run p os = rc_new p).
Proof. exact reset_initial. Qed.
Print Assumptions C19_reset.

Theorem C19_eventually_tls : forall c mu0 s r, 0 < c -> 0 < mu0 -> 1 < s -> 0 <= r -> r <> c ->
  exists K : nat, forall (p : RobustParams R) (k : nat),
    costType p = GNC_TLS -> GNCBarc p = c -> GNCInitMu p = mu0 -> GNCMuStep p = s ->
    (K <= N.to_nat (GNCMaxNumIters p))%nat -> (K <= k)%nat -> (N.of_nat k < two64)%N ->
    weight (rc_updates k (rc_new p)) r = if Rlt_dec r c then 1 else 0.
Proof. exact eventually_tls. Qed.
Print Assumptions C19_eventually_tls.

Theorem C19_band_shrinks : forall c mu mu', 0 < c -> 0 < mu -> mu < mu' ->
  mu / (mu + 1) * (c * c) < mu' / (mu' + 1) * (c * c) /\
  mu' / (mu' + 1) * (c * c) < c * c < (mu' + 1) / mu' * (c * c) /\
  (mu' + 1) / mu' * (c * c) < (mu + 1) / mu * (c * c).
Proof. exact band_shrinks. Qed.
Print Assumptions C19_band_shrinks.

Example C19_example : let p := default_robust (S := R) GNC_TLS in
  costType p = GNC_TLS /\ 0 < GNCInitMu p /\ 1 < GNCMuStep p /\ (GNCMaxNumIters p = 20)%N /\
  rc_mu (rc_updates 2 (rc_new p)) = 196 / 1000000.
Proof. exact ex_schedule. Qed.

(** The bound on the number of calls is needed: the counter wraps and mu grows again. *)
Theorem C19_wrap_refuted : forall p : RobustParams R, costType p = GNC_TLS -> (1 <= GNCMaxNumIters p)%N ->
  0 < GNCInitMu p -> 1 < GNCMuStep p ->
  exists k : nat, N.of_nat k = two64 /\ rc_mu (rc_updates (S k) (rc_new p)) = GNCMuStep p * rc_mu (rc_updates k (rc_new p)).
Proof. exact schedule_wraps. Qed.
Print Assumptions C19_wrap_refuted.

(** ** C51 *)
Theorem C51_gnc_minimises : forall (co : RobustCost R) r w, costType (rc_params co) = GNC_TLS ->
  0 < rc_mu co -> 0 <= r -> 0 <= w <= 1 ->
  0 <= weight co r <= 1 /\
  gnc_objective (rc_mu co) (GNCBarc (rc_params co)) r (weight co r) <=
  gnc_objective (rc_mu co) (GNCBarc (rc_params co)) r w.
Proof. exact gnc_minimises. Qed.
Print Assumptions C51_gnc_minimises.

Theorem C51_majorised : forall p mu it r r', pos_params p mu -> 0 <= r -> 0 <= r' -> (costType p = L1 -> 0 < r) ->
  loss p mu r' <= loss p mu r + weight (mkRobustCost p it mu) r / 2 * (r' * r' - r * r).
Proof. exact majorised. Qed.
Print Assumptions C51_majorised.

Theorem C51_irls_descent : forall p mu it (rs : list (R * R)), pos_params p mu ->
  (forall a, In a rs -> 0 <= fst a /\ 0 <= snd a /\ (costType p = L1 -> 0 < fst a)) ->
  nsumL (fun a => weight (mkRobustCost p it mu) (fst a) * (snd a * snd a)) rs <=
  nsumL (fun a => weight (mkRobustCost p it mu) (fst a) * (fst a * fst a)) rs ->
  nsumL (fun a => loss p mu (snd a)) rs <= nsumL (fun a => loss p mu (fst a)) rs.
Proof. exact irls_descent. Qed.
Print Assumptions C51_irls_descent.

Example C51_example : pos_params ex_huber 1 /\
  (forall a, In a ex_res -> 0 <= fst a /\ 0 <= snd a /\ (costType ex_huber = L1 -> 0 < fst a)) /\
  nsumL (fun a => weight (mkRobustCost ex_huber 0 1) (fst a) * (snd a * snd a)) ex_res <
  nsumL (fun a => weight (mkRobustCost ex_huber 0 1) (fst a) * (fst a * fst a)) ex_res.
Proof. exact ex_irls. Qed.
