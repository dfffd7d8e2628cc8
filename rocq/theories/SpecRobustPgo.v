(** Specification of graduated non-convexity over a pose graph (C58). *)
From Coq Require Import List NArith Reals.
From Verif Require Import Base Num RSum ModelTypes ModelPoses SpecCost SpecSolver.
Import ListNotations.
Local Open Scope R_scope.

(** Squared residual of a measurement at a trajectory. *)
Definition pgo_res (d : nat) (T : PoseArr R) (m : Meas R) : R :=
  edge_cost d d (set_mweight 1 m) (pblk T (N.to_nat (mp1 m))) (pblk T (N.to_nat (mp2 m))).

(** Weight of the squared residual [e] at control parameter [mu] and threshold [c]. *)
Definition tls_weight (mu c e : R) : R :=
  if Rle_dec ((mu + 1) / mu * (c * c)) e then 0
  else if Rle_dec e (mu / (mu + 1) * (c * c)) then 1
  else sqrt (c * c * mu * (mu + 1) / e) - mu.

Definition reweighted (d : nat) (mu c : R) (T : PoseArr R) (m : Meas R) : Meas R :=
  if mfixed m then m else set_mweight (tls_weight mu c (pgo_res d T m)) m.

(** Accepted or rejected up to 1e-8; fixed measurements are not judged. *)
Definition decided (m : Meas R) : Prop :=
  mfixed m = true \/ mweight m < 1 / 100000000 \/ 1 - 1 / 100000000 < mweight m.

(** The measurements after k gnc_rounds, starting with all weights 1: solve, then
    reweight with mu0 * step^k; a round follows only while something is undecided. *)
Inductive gnc_rounds (solve : list (Meas R) -> res (PoseArr R)) (d : nat) (c mu0 step : R) (ms : list (Meas R)) : nat -> list (Meas R) -> Prop :=
| gnc_rounds_0 : gnc_rounds solve d c mu0 step ms 0 (map (set_mweight 1) ms)
| gnc_rounds_S k ms1 T : gnc_rounds solve d c mu0 step ms k ms1 -> (k <> 0%nat -> ~ Forall decided ms1) -> solve ms1 = Ok T ->
    gnc_rounds solve d c mu0 step ms (S k) (map (reweighted d (mu0 * step ^ k) c T) ms1).

(** The same measurements up to weights. *)
Definition same_but_weights (ms ms' : list (Meas R)) : Prop := Forall2 (fun m m' => exists w, m' = set_mweight w m) ms ms'.
