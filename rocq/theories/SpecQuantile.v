(** The chi-squared distribution with six degrees of freedom. *)
From Coq Require Import NArith Reals.
Local Open Scope R_scope.

(** Its density on the nonnegative reals: x^2 e^(-x/2) / 16. *)
Definition chi2_density6 (x : R) : R := x ^ 2 * exp (- (x / 2)) / 16.
(** The probability of values up to [x] is [q]. *)
Definition mass_upto (x q : R) : Prop := exists pr : Riemann_integrable chi2_density6 0 x, RiemannInt pr = q.
(** What boost's [quantile] has to deliver. *)
Definition chi2inv_ok (chi2inv : R -> N -> R) : Prop :=
  forall q, 0 < q < 1 -> 0 <= chi2inv q 6%N /\ mass_upto (chi2inv q 6%N) q.
(** A residual (unsquared) is among the fraction [q] of smallest ones. *)
Definition within (q r : R) : Prop := forall p, mass_upto (r * r) p -> p < q.
(** The same with the boundary. *)
Definition upto (q r : R) : Prop := forall p, mass_upto (r * r) p -> p <= q.
