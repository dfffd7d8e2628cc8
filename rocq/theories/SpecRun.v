(** Specification for the multi-robot example program as a whole.
    Independent of the helpers of ModelExampleRun.v. *)
From Coq Require Import List NArith Arith Reals Bool.
From Verif Require Import Base Num ModelTypes ModelPoseGraph ModelProblem ModelPoses ModelOptimizer ModelAgent ModelExample ModelExampleRun SpecPoseGraph SpecCost SpecExample.
Import ListNotations.

(** The thin SVD of an r x d matrix has factors with r and d rows. *)
Definition svd_sized (x : Ext R) (r d : nat) : Prop := forall M, mrows M = r -> mcols M = d ->
  mrows (fst (x_svd_thin x M)) = r /\ mrows (snd (x_svd_thin x M)) = d.

(** The optimiser returns a matrix of the size of its argument, if the argument
    has a cost. *)
Definition opt_sized (opt : Optimizer R) : Prop := forall g X g1 v, qp_f g X = Ok (g1, v) ->
  mrows (snd (opt g X)) = mrows X /\ mcols (snd (opt g X)) = mcols X.

(** [D] is the gradient at [X] of the dataset's cost. *)
Definition gradient_of (r d : nat) (ds : list (Meas R)) (X D : Mx R) : Prop :=
  mrows D = mrows X /\ mcols D = mcols X /\
  forall V, mrows V = mrows X -> mcols V = mcols X -> exists q, forall t,
    (dataset_cost r d ds (madd X (mscal t V)) = dataset_cost r d ds X + t * mdot D V + t * t * q)%R.

(** A dataset the example accepts: [n] poses for [m] robots, at least two poses
    per robot, no pair of poses measured twice, and odometry edges
    0 -> 1 -> ... -> n-1 in this order (loop closures may stand anywhere). *)
Definition dataset_ok (d r : nat) (n m : N) (ds : list (Meas R)) : Prop :=
  sizes_ok n m /\ (2 <= n / m)%N /\ (d = 2 \/ d = 3)%nat /\ (d <= r)%nat /\ NoDup (map pair_of ds) /\
  (forall e, In e ds -> mr1 e = 0%N /\ mr2 e = 0%N /\ (mp1 e < n)%N /\ (mp2 e < n)%N /\ mp1 e <> mp2 e /\ mweight e = 1%R /\ shape_ok d e) /\
  map mp1 (filter next_pose ds) = map N.of_nat (seq 0 (N.to_nat n - 1)).

(** An optimiser that does not raise the cost of the problem it is given. *)
Definition descending (o : Optimizer R) : Prop :=
  forall g X g1 v g2 v', qp_f g X = Ok (g1, v) -> qp_f g (snd (o g X)) = Ok (g2, v') -> (v' <= v)%R.

(** A trajectory of all [n] poses; robot [k]'s part of it. *)
Definition whole (d r : nat) (n : N) (X : Mx R) : Prop := mrows X = r /\ mcols X = (N.to_nat n * S d)%nat.
Definition part_of (d r : nat) (n m k : N) (X M : Mx R) : Prop := forall l i c, (l < size_of n m k)%N -> (i < r)%nat -> (c <= d)%nat ->
  M i (N.to_nat l * S d + c)%nat = X i (N.to_nat (k * (n / m) + l) * S d + c)%nat.
(** Norm of robot [k]'s columns. *)
Definition part_norm (d r : nat) (n m k : N) (D : Mx R) : R :=
  mnorm (mblock D 0 (N.to_nat (k * (n / m)) * S d) r (N.to_nat (size_of n m k) * S d)).

(** The robot after [k], given the gradient: the first one with the largest part,
    unless robot [k] shares no measurement with another. *)
Definition chosen (d r : nat) (n m : N) (ds : list (Meas R)) (k : N) (D : Mx R) (k' : N) : Prop :=
  ((exists e, In e ds /\ one_end n m k e = true) ->
     (forall j, (j < m)%N -> (part_norm d r n m j D <= part_norm d r n m k' D)%R) /\ (forall j, (j < k')%N -> (part_norm d r n m j D < part_norm d r n m k' D)%R)) /\
  (~ (exists e, In e ds /\ one_end n m k e = true) -> k' = k).

(** The output [out] of a run with at most [iters] iterations: line [j] belongs
    to the trajectory [nth j Xs] with the gradient [nth j Ds]. *)
Record printed (d r : nat) (n m : N) (ds : list (Meas R)) (proj : Mx R -> Mx R -> Mx R) (iters : nat) (out : list (Line R)) (Xs Ds : list (Mx R)) : Prop := {
  pr_len : length Xs = length out /\ length Ds = length out /\ (length out <= iters)%nat;
  pr_line : forall j ln X D, nth_error out j = Some ln -> nth_error Xs j = Some X -> nth_error Ds j = Some D ->
    ln_iter ln = N.of_nat j /\ (ln_robot ln < m)%N /\ whole d r n X /\ ln_cost ln = (2 * dataset_cost r d ds X)%R /\
    gradient_of r d ds X D /\ ln_gradnorm ln = mnorm (proj X D);
  pr_first : forall ln, nth_error out 0 = Some ln -> ln_robot ln = 0%N;
  pr_next : forall j ln ln' X D, nth_error out j = Some ln -> nth_error out (S j) = Some ln' -> nth_error Xs j = Some X -> nth_error Ds j = Some D ->
    (1 / 10 <= ln_gradnorm ln)%R /\ chosen d r n m ds (ln_robot ln) (proj X D) (ln_robot ln');
  pr_stop : (length out < iters)%nat -> exists ln, nth_error out (length out - 1) = Some ln /\ (ln_gradnorm ln < 1 / 10)%R }.

(** The robots at the end: back in the waiting state of a second run, with the
    trajectory of the last line. *)
Definition finished (d r : nat) (n m : N) (X : Mx R) (ags : list (Agent R)) : Prop :=
  length ags = N.to_nat m /\ forall k a, nth_error ags (N.to_nat k) = Some a ->
    a_id a = k /\ a_state a = WAIT_FOR_DATA /\ a_inst a = 1%N /\ a_iter a = 0%N /\ part_of d r n m k X (pa_X (a_X a)).

(** [opt] is the optimiser wrapper of ModelOptimizer.v wherever that gives a
    result. *)
Definition is_wrapper {St} (L : PoseGraph R -> Lib R St) (p : ROptParams R) (opt : Optimizer R) : Prop :=
  forall g X g' X' rr runs, optimize (L g) p g X = Ok (g', X', rr, runs) -> snd (opt g X) = X'.
