(** Specification of joining a neighbour's frame (C60): angles between
    rotations, the shared measurements that count, means of translations. *)
From Coq Require Import List NArith Bool Arith Reals.
From Verif Require Import Base SMap Num RSum ModelTypes ModelPoses SpecPoseGraph SpecCost SpecSolver SpecFrames.
Import ListNotations.
Local Open Scope R_scope.

(** ** The angle between two rotations *)

(** Rotation of the plane by [t]. *)
Definition plane_rot (t : R) (i j : nat) : R :=
  match i, j with
  | O, O => cos t | O, S O => - sin t
  | S O, O => sin t | S O, S O => cos t
  | _, _ => 0
  end.
(** Rodrigues: rotation of space about the axis (x, y, z) by [t]. *)
Definition axis_rot (x y z t : R) (i j : nat) : R :=
  let u k := match k with O => x | S O => y | _ => z end in
  (if Nat.eqb i j then cos t else 0) + (1 - cos t) * (u i * u j) +
  sin t * match i, j with
          | O, S O => - z | O, S (S O) => y
          | S O, O => z | S O, S (S O) => - x
          | S (S O), O => - y | S (S O), S O => x
          | _, _ => 0
          end.
(** [C] turns by the angle [t], in either direction or about any axis. *)
Definition turns (d : nat) (t : R) (C : nat -> nat -> R) : Prop :=
  (d = 2%nat /\ (C = plane_rot t \/ C = plane_rot (- t))) \/
  (d = 3%nat /\ exists x y z, x * x + y * y + z * z = 1 /\ C = axis_rot x y z t).
(** [t] is the angle between [A] and [B]. *)
Definition angle (d : nat) (A B : nat -> nat -> R) (t : R) : Prop :=
  0 <= t <= PI /\ exists C, turns d t C /\
  forall i j, (i < d)%nat -> (j < d)%nat -> B i j = rsum d (fun k => A i k * C k j).

(** ** The measurements that count *)

(** Shared with robot [k], and the neighbour's pose was sent. *)
Definition evidence (id k : N) (dict : list (PoseID * Mx R)) (ms : list (Meas R)) : list (Meas R) :=
  filter (fun m => (other_robot id m =? k)%N && match mfind pose_ltb (other_pose id m) dict with Some _ => true | None => false end) ms.

(** The poses sent are those of [Tn], lifted. *)
Definition sent (r d : nat) (k : N) (YL : nat -> nat -> R) (Tn : PoseID -> nat -> nat -> R) (dict : list (PoseID * Mx R)) : Prop :=
  forall q v, robot_id q = k -> mfind pose_ltb q dict = Some v ->
    rot_block d (Tn q) /\ sized r (d + 1) v /\ forall i j, (i < r)%nat -> (j < d + 1)%nat -> v i j = lift d YL (Tn q) i j.

(** [Ws]: for each measurement the change of frame after which it holds. *)
Definition candidates (id : N) (d : nat) (Tn : PoseID -> nat -> nat -> R) (T : PoseArr R) (ms : list (Meas R)) (Ws : list (Mx R)) : Prop :=
  Forall2 (fun m W => joined id d m (Tn (other_pose id m)) (pblk T (N.to_nat (frame_id (own_pose id m)))) (Num.mat W)) ms Ws.

(** The decompositions taken while averaging are right. *)
Definition averages_ok (svd : Mx R -> Mx R * Mx R) (d : nat) (Ws : list (Mx R)) : Prop :=
  forall ws M, length ws = length Ws -> 0 < nsumL (fun w => w) ws ->
    sized d d M -> (forall i j, (i < d)%nat -> (j < d)%nat -> M i j = wsum ws Ws i j) -> svd_at svd d d M.

Definition pick (Ws : list (Mx R)) (i : nat) : Mx R := nth i Ws (mzero 0 0).
(** Column d of [P] is the mean of the columns d of the chosen ones. *)
Definition mean_translation (d : nat) (Ws : list (Mx R)) (used : list nat) (P : nat -> nat -> R) : Prop :=
  forall i, (i < d)%nat -> INR (length used) * P i d = nsumL (fun k => pick Ws k i d) used.

(** ** The situation: robot [id] knows its own trajectory [T] in its local frame and the
    lifting matrix, robot [k] sent poses; rotations are rotations. *)
Definition hears (minv : Mx R -> Mx R) (id k : N) (r d : nat) (shared : list (Meas R)) (YL : nat -> nat -> R) (T : PoseArr R)
  (Tn : PoseID -> nat -> nat -> R) (dict : list (PoseID * Mx R)) : Prop :=
  k <> id /\ orthonormal r d YL /\ inverse_ok minv d /\ sent r d k YL Tn dict /\
  forall m, In m (evidence id k dict shared) -> rot_block d (mR m) /\ rot_block d (pblk T (N.to_nat (frame_id (own_pose id m)))).

(** [Q] is within the angle [r] of [W]. *)
Definition within (r : R) (d : nat) (Q W : nat -> nat -> R) : Prop := exists t, angle d Q W t /\ t < r.

(** The same first [c] columns. *)
Definition same_part (d c0 c : nat) (A W : Mx R) : Prop :=
  sized d c A /\ forall i j, (i < d)%nat -> (j < c)%nat -> A i j = W i (c0 + j)%nat.

(** Squared residual of a candidate turned by [t] from the estimate: weights 1.82 and 0.01. *)
Definition mismatch (d : nat) (t : R) (tr : Mx R) (W : nat -> nat -> R) : R :=
  182 / 100 * 8 * (sin (t / 2) * sin (t / 2)) + 1 / 100 * rsum d (fun i => sq (tr i O - W i d)).
