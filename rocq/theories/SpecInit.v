(** Specification of chordal initialisation (C53). *)
From Coq Require Import List NArith Reals.
From Verif Require Import Base Num RSum Det ModelTypes ModelPoseGraph ModelPoses ModelOptimizer SpecCost SpecSolver SpecOptimizer.
Import ListNotations.
Local Open Scope R_scope.

(** The poses are 0, ..., n-1 and the last one occurs. *)
Definition pose_count (ms : list (Meas R)) (n : N) : Prop :=
  (forall m, In m ms -> (mp1 m < n)%N /\ (mp2 m < n)%N) /\
  exists m, In m ms /\ ((mp1 m + 1)%N = n \/ (mp2 m + 1)%N = n).

(** A path of measurements, used in either direction, leads to the pose from
    pose 0. *)
Inductive reached (ms : list (Meas R)) : N -> Prop :=
| reached_0 : reached ms 0
| reached_fwd m : In m ms -> reached ms (mp1 m) -> reached ms (mp2 m)
| reached_bwd m : In m ms -> reached ms (mp2 m) -> reached ms (mp1 m).

Definition meas_sized (d : nat) (m : Meas R) : Prop := sized d d (mR m) /\ sized d 1 (mt m).

(** Cost of rotations and of translations (given rotations); row [a], column [c]
    of the i-th rotation is [Q i a c]. *)
Definition rot_cost (d : nat) (ms : list (Meas R)) (Q : nat -> nat -> nat -> R) : R :=
  nsumL (fun m => mkappa m * rsum d (fun c => rsum d (fun a =>
     sq (Q (N.to_nat (mp2 m)) a c - rsum d (fun b => Q (N.to_nat (mp1 m)) a b * mR m b c))))) ms.
Definition trans_cost (d : nat) (ms : list (Meas R)) (Q : nat -> nat -> nat -> R) (t : nat -> nat -> R) : R :=
  nsumL (fun m => mtau m * rsum d (fun a =>
     sq (t (N.to_nat (mp2 m)) a - t (N.to_nat (mp1 m)) a - rsum d (fun b => Q (N.to_nat (mp1 m)) a b * mt m b 0%nat)))) ms.

(** Least squares solution of B x = c; solution whenever there is one. *)
Definition residual2 (B : Mx R) (c x : nat -> R) : R := rsum (mrows B) (fun i => sq (mulv B x i - c i)).
Definition least_squares (B : Mx R) (c x : nat -> R) : Prop := forall y, residual2 B c x <= residual2 B c y.
Definition solved (B : Mx R) (c x : nat -> R) : Prop := forall i, (i < mrows B)%nat -> mulv B x i = c i.
Definition solves_if_possible (qr : Mx R -> (nat -> R) -> nat -> R) (B : Mx R) : Prop :=
  forall c, (exists y, solved B c y) -> solved B c (qr B c).

(** The last [k] columns. *)
Definition last_cols (k : nat) (B : Mx R) : Mx R := mkMx (mrows B) k (fun i j => B i (mcols B - k + j)%nat).

(** Pose i seen from pose 0: R0^T Ri and R0^T (ti - t0). *)
Definition seen_rot (d : nat) (Q : nat -> Mx R) (i a c : nat) : R := rsum d (fun b => Q 0%nat b a * Q i b c).
Definition seen_pos (d : nat) (Q t : nat -> Mx R) (i a : nat) : R := rsum d (fun b => Q 0%nat b a * (t i b 0%nat - t 0%nat b 0%nat)).

(** A single-robot problem of dimension d with n poses (C54). *)
Definition single_problem (k : N) (d n : nat) (ms : list (Meas R)) : Prop :=
  (d = 2 \/ d = 3)%nat /\ pose_count ms (N.of_nat n) /\ (N.of_nat n < two32)%N /\ (k < 4294967295)%N /\
  forall m, In m ms -> mr1 m = k /\ mr2 m = k /\ mp1 m <> mp2 m /\ meas_sized d m.

(** Cost of a trajectory matrix: the weighted squares of the measurements. *)
Definition mx_cost (d : nat) (ms : list (Meas R)) (X : Mx R) : R :=
  nsumL (fun m => edge_cost d d m (pose_blk d X (N.to_nat (mp1 m))) (pose_blk d X (N.to_nat (mp2 m)))) ms.

(** Solvers whose accepted iterates keep the size of the start and cost no more,
    whatever the problem ([g]) they are made for. *)
Definition descent_solver {St} (L : PoseGraph R -> Lib R St) (single : bool) : Prop :=
  forall g Y st d1 d2, solver_state (L g) Y st -> (single = true -> l_accepted (L g) (l_run (L g) st d1 d2) = true) ->
    let X := l_xopt (L g) (l_run (L g) st d1 d2) in
    sized (mrows Y) (mcols Y) X /\ forall v v', cost_is g Y v -> cost_is g X v' -> v' <= v.
