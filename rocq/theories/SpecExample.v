(** Specification of the partition of the multi-robot example (C16). *)
From Coq Require Import List NArith Bool Reals.
From Verif Require Import Base Num ModelTypes SpecPoseGraph SpecCost.
Import ListNotations.
Local Open Scope N_scope.

(** Among [m] robots, robot [k] owns [n / m] consecutive poses out of [n]; the
    last one owns what is left. *)
Definition ownsb (n m k p : N) : bool :=
  (k <? m) && (p <? n) && (k * (n / m) <=? p) && ((p <? (k + 1) * (n / m)) || (k + 1 =? m)).
Definition owns (n m k p : N) : Prop := ownsb n m k p = true.
Definition size_of (n m k : N) : N := if k + 1 =? m then n - k * (n / m) else n / m.
(** Sizes for which the example runs: at least one pose per robot, 32-bit pose
    count, [int] number of robots. *)
Definition sizes_ok (n m : N) : Prop := 1 <= m /\ m <= n /\ n < 4294967296 /\ m < 2147483648.

Section S.
Context {S : Type} `{Num S}.
Definition edge_in (n : N) (e : Meas S) : Prop := mp1 e < n /\ mp2 e < n.

(** Both ends, exactly one end owned by robot [k]. *)
Definition both (n m k : N) (e : Meas S) : bool := ownsb n m k (mp1 e) && ownsb n m k (mp2 e).
Definition one_end (n m k : N) (e : Meas S) : bool := xorb (ownsb n m k (mp1 e)) (ownsb n m k (mp2 e)).
(** The poses an edge joins. *)
Definition pair_of (e : Meas S) : N * N := (mp1 e, mp2 e).
Definition next_pose (e : Meas S) : bool := mp2 e =? mp1 e + 1.

(** The same edge in the names of the robots' own poses. *)
Definition relabelled (n m : N) (e e' : Meas S) : Prop :=
  owns n m (mr1 e') (mp1 e) /\ owns n m (mr2 e') (mp2 e) /\
  mp1 e = mr1 e' * (n / m) + mp1 e' /\ mp2 e = mr2 e' * (n / m) + mp2 e' /\
  mR e' = mR e /\ mt e' = mt e /\ mkappa e' = mkappa e /\ mtau e' = mtau e /\ mfixed e' = false /\ mweight e' = n1.
End S.

Local Open Scope R_scope.
(** The cost of the dataset for a trajectory of all poses. *)
Definition dataset_cost (r d : nat) (M : list (Meas R)) (X : nat -> nat -> R) : R :=
  / 2 * nsumL (fun m => edge_cost r d m (pose_blk d X (N.to_nat (mp1 m))) (pose_blk d X (N.to_nat (mp2 m)))) M.
