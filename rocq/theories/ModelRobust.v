(** Robust cost functions.
    Source: src/DPGO_robust.cpp, include/DPGO/DPGO_robust.h *)
From Coq Require Import NArith ZArith Bool.
From Verif Require Import Base Num.
Local Open Scope num_scope.

(** DPGO_robust.h:24-31 [RobustCostParameters::Type]. The switch statements have
    one case per value, so the throwing [default] of [weight] is unreachable. *)
Inductive CostType := L2 | L1 | TLS | Huber | GM | GNC_TLS.

Definition cost_type_eqb (a b : CostType) : bool :=
  match a, b with
  | L2, L2 | L1, L1 | TLS, TLS | Huber, Huber | GM, GM | GNC_TLS, GNC_TLS => true
  | _, _ => false
  end.

Section Robust.
Context {S : Type} `{Num S}.

(** DPGO_robust.h:33-46 members; [GNCMaxNumIters] is [unsigned]. *)
Record RobustParams := mkRobustParams {
  costType : CostType;
  GNCMaxNumIters : N; GNCBarc : S; GNCMuStep : S; GNCInitMu : S;
  HuberThreshold : S; TLSThreshold : S }.

(** DPGO_robust.h:48-56 default constructor arguments. *)
Definition default_robust (t : CostType) : RobustParams :=
  mkRobustParams t 20 (nofZ 5) (nlit 14 10) (nlit 1 10000) (nofZ 3) (nofZ 10).

(** DPGO_robust.h:127-133 members; [mGNCIteration] is [size_t]. *)
Record RobustCost := mkRobustCost { rc_params : RobustParams; rc_iter : N; rc_mu : S }.

(** DPGO_robust.cpp:100-114 [RobustCost::reset] *)
Definition rc_reset (c : RobustCost) : RobustCost :=
  match costType (rc_params c) with
  | GNC_TLS => mkRobustCost (rc_params c) 0 (GNCInitMu (rc_params c))
  | _ => c
  end.

(** DPGO_robust.cpp:49-52 constructor ([mGNCIteration] is initialised to 0 in
    the class, DPGO_robust.h:130). *)
Definition rc_new (p : RobustParams) : RobustCost := rc_reset (mkRobustCost p 0 (GNCInitMu p)).

(** DPGO_robust.cpp:54-98 [RobustCost::weight] *)
Definition weight (c : RobustCost) (r : S) : S :=
  let p := rc_params c in
  match costType p with
  | L2 => n1
  | L1 => n1 / r
  | Huber => if nltb r (HuberThreshold p) then n1 else HuberThreshold p / r
  | TLS => if nltb r (TLSThreshold p) then n1 else n0
  | GM => let a := n1 + r * r in n1 / (a * a)
  | GNC_TLS =>
      let mu := rc_mu c in
      let rSq := r * r in
      let barcSq := GNCBarc p * GNCBarc p in
      let upperBound := (mu + n1) / mu * barcSq in
      let lowerBound := mu / (mu + n1) * barcSq in
      if nleb upperBound rSq then n0
      else if nleb rSq lowerBound then n1
      else nsqrt (barcSq * mu * (mu + n1) / rSq) - mu
  end.

(** DPGO_robust.cpp:116-134 [RobustCost::update]; [mGNCIteration++] wraps at 2^64. *)
Definition rc_update (c : RobustCost) : RobustCost :=
  let p := rc_params c in
  if negb (cost_type_eqb (costType p) GNC_TLS) then c
  else
    let it := u64 (rc_iter c + 1) in
    if (GNCMaxNumIters p <? it)%N then mkRobustCost p it (rc_mu c)
    else mkRobustCost p it (GNCMuStep p * rc_mu c).

(** [k] successive calls of [update]. *)
Fixpoint rc_updates (k : nat) (c : RobustCost) : RobustCost :=
  match k with O => c | Datatypes.S k' => rc_update (rc_updates k' c) end.

(** DPGO_robust.h:116-123 [computeErrorThresholdAtQuantile]; [chi2inv] (boost
    quantile, DPGO_utils) is external. [(int) dimension] truncates to 32 bits
    (the value 3 has only the preimages 3 mod 2^32). *)
Definition errorThresholdAtQuantile (chi2inv : S -> N -> S) (quantile : S) (dimension : N) : res S :=
  check ((u32 dimension =? 3)%N)
  (check (nltb n0 quantile)
  (if nltb quantile n1 then Ok (nsqrt (chi2inv quantile 6%N)) else Ok (nofZ 100000))).

End Robust.
Arguments RobustParams : clear implicits.
Arguments RobustCost : clear implicits.
