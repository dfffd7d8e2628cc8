(** Specifications for averaging, projections, pose algebra (C20-C24, C26-C28). *)
From Coq Require Import List NArith Reals Sorted.
From Verif Require Import Base Num RSum Det ModelTypes ModelPoses SpecCost.
Import ListNotations.
Local Open Scope R_scope.

(** Square of the Frobenius distance over the first r x c coefficients. *)
Definition dist2 (r c : nat) (A B : nat -> nat -> R) : R :=
  rsum r (fun i => rsum c (fun j => sq (A i j - B i j))).

(** Elements of SO(d) and of the Stiefel manifold St(r,d). *)
Definition rotation (d : nat) (Q : Mx R) : Prop :=
  mrows Q = d /\ mcols Q = d /\ orthonormal d d Q /\ det d Q = 1.
Definition stiefel (r d : nat) (Y : Mx R) : Prop :=
  mrows Y = r /\ mcols Y = d /\ orthonormal r d Y.

(** [M] (r x d) = U diag(s) V^T with k singular values, decreasing and nonnegative. *)
Definition is_svd (r d k : nat) (M U V : Mx R) : Prop :=
  mrows U = r /\ mcols U = k /\ mrows V = d /\ mcols V = k /\
  orthonormal r k U /\ orthonormal d k V /\
  exists s : nat -> R,
    (forall l, (l < k)%nat -> 0 <= s l) /\ (forall l l', (l <= l')%nat -> (l' < k)%nat -> s l' <= s l) /\
    forall i j, (i < r)%nat -> (j < d)%nat -> M i j = rsum k (fun l => U i l * s l * V j l).

(** Weighted sum of squared distances to a list of matrices. *)
Definition spread (r c : nat) (ws : list R) (Ms : list (Mx R)) (A : nat -> nat -> R) : R :=
  nsumL (fun p : R * Mx R => fst p * dist2 r c A (snd p)) (combine ws Ms).

(** Rigid poses as 1-element pose arrays. *)
Definition rigid (d : nat) (p : PoseArr R) : Prop :=
  pa_r p = d /\ pa_d p = d /\ pa_n p = 1%nat /\ mrows (pa_X p) = d /\ mcols (pa_X p) = (d + 1)%nat /\
  orthonormal d d (pa_X p) /\ det d (pa_X p) = 1.

(** Same pose. *)
Definition pose_eq (p q : PoseArr R) : Prop :=
  pa_r p = pa_r q /\ pa_d p = pa_d q /\ pa_n p = pa_n q /\ mx_eq (pa_X p) (pa_X q).

(** Action on points: R x + t. *)
Definition act (d : nat) (p : PoseArr R) (x : nat -> R) (i : nat) : R :=
  rsum d (fun k => pa_X p i k * x k) + pa_X p i d.

(** A two-sided inverse. *)
Definition is_inverse (n : nat) (A B : Mx R) : Prop :=
  mrows B = n /\ mcols B = n /\
  forall i j, (i < n)%nat -> (j < n)%nat ->
    rsum n (fun k => A i k * B k j) = (if Nat.eqb i j then 1 else 0) /\
    rsum n (fun k => B i k * A k j) = (if Nat.eqb i j then 1 else 0).

(** Well-formed arrays: what every constructor and setter produces. *)
Definition pa_wf (a : PoseArr R) : Prop :=
  mrows (pa_X a) = pa_r a /\ mcols (pa_X a) = ((pa_d a + 1) * pa_n a)%nat.

(** A complete odometry list 0 -> 1 -> ... -> n-1 of dimension d. *)
Definition chain (d : nat) (odometry : list (Meas R)) : Prop :=
  odometry <> [] /\ (d = 2 \/ d = 3)%nat /\ (N.of_nat (length odometry) + 1 < two64)%N /\
  forall k m, nth_error odometry k = Some m ->
    mp1 m = N.of_nat k /\ mp2 m = N.of_nat (k + 1) /\
    mrows (mR m) = d /\ mcols (mR m) = d /\ mrows (mt m) = d /\ mcols (mt m) = 1%nat.

(** The weights in force: the given ones if their number is right. *)
Definition in_force (n : nat) (v : list R) (dflt : R) : list R :=
  if Nat.eqb (length v) n then v else repeat dflt n.

(** Entries of the weighted sum. *)
Definition wsum (ws : list R) (Ms : list (Mx R)) (i j : nat) : R :=
  nsumL (fun p : R * Mx R => fst p * snd p i j) (combine ws Ms).

(** Squared residuals of candidate [i] for an estimated rotation and translation. *)
Definition rot_residual (d : nat) (kappa : list R) (RVec : list (Mx R)) (Q : Mx R) (i : nat) : R :=
  nth i kappa 0 * dist2 d d Q (nth i RVec (mzero d d)).
Definition pose_residual (d : nat) (kappa tau : list R) (RVec tVec : list (Mx R)) (Q t : Mx R) (i : nat) : R :=
  rot_residual d kappa RVec Q i + nth i tau 0 * dist2 d 1 t (nth i tVec (mzero d 1)).

Definition sized (r c : nat) (M : Mx R) : Prop := mrows M = r /\ mcols M = c.

(** What Eigen's decompositions have to deliver: at one matrix, a singular value
    decomposition; always, factors of the right size. *)
Definition svd_at (svd : Mx R -> Mx R * Mx R) (r d : nat) (M : Mx R) : Prop :=
  is_svd r d d M (fst (svd M)) (snd (svd M)).

Definition div_ok (mudiv : R -> R -> R) : Prop := forall a b, b <> 0 -> mudiv a b = a / b.
(** Dividing a positive number by zero gives a large number (the machine gives +infinity). *)
Definition div_zero_big (mudiv : R -> R -> R) : Prop := forall a, 0 < a -> 1 <= mudiv a 0.
Definition svd_sized (svd : Mx R -> Mx R * Mx R) (d : nat) : Prop :=
  forall M, sized d d M -> sized d d (fst (svd M)) /\ sized d d (snd (svd M)).

(** ** Accessors and pose algebra *)

(** The same outcome of a read. *)
Definition same_read {S} (x y : res (Mx S)) : Prop :=
  match x, y with Ok A, Ok B => mx_eq A B | Abort, Abort => True | UB, UB => True | _, _ => False end.
Definition reads {S} (x : res (Mx S)) (B : Mx S) : Prop := match x with Ok A => mx_eq A B | _ => False end.
Definition same_dims {S} (a b : PoseArr S) : Prop :=
  pa_r a = pa_r b /\ pa_d a = pa_d b /\ pa_n a = pa_n b /\ mrows (pa_X a) = mrows (pa_X b) /\ mcols (pa_X a) = mcols (pa_X b).
Definition same_pose {S} `{Num S} (a b : PoseArr S) (j : nat) : Prop :=
  same_read (pa_pose a j) (pa_pose b j) /\ same_read (pa_rot a j) (pa_rot b j) /\ same_read (pa_trans a j) (pa_trans b j).


(** One d-dimensional pose. *)
Definition wf1 (d : nat) (p : PoseArr R) : Prop :=
  pa_r p = d /\ pa_d p = d /\ pa_n p = 1%nat /\ mrows (pa_X p) = d /\ mcols (pa_X p) = (d + 1)%nat.

(** Homogeneous matrix. *)
Definition hom (d : nat) (p : PoseArr R) (i j : nat) : R :=
  if Nat.ltb i d then pa_X p i j else if Nat.eqb i j then 1 else 0.

(** The inverse supplied for the homogeneous matrix of p is one. *)
Definition inv_at (minv : Mx R -> Mx R) (d : nat) (p : PoseArr R) : Prop :=
  forall A, sized (d + 1) (d + 1) A ->
    (forall i j, (i < d + 1)%nat -> (j < d + 1)%nat -> A i j = hom d p i j) -> is_inverse (d + 1) A (minv A).


(** ** Odometry *)

(** The pose B is the pose A moved by the measurement. *)
Definition link (d : nat) (m : Meas R) (A B : nat -> nat -> R) : Prop :=
  forall a, (a < d)%nat ->
    (forall c, (c < d)%nat -> B a c = rsum d (fun b => A a b * mR m b c)) /\
    B a d = A a d + rsum d (fun b => A a b * mt m b O).

(** Pose i of an array as a d x (d+1) block. *)
Definition pblk (T : PoseArr R) (i : nat) : nat -> nat -> R := fun a c => pa_X T a (i * (pa_d T + 1) + c)%nat.

(** An array of n poses of dimension d. *)
Definition traj (d n : nat) (T : PoseArr R) : Prop :=
  pa_r T = d /\ pa_d T = d /\ pa_n T = n /\ mrows (pa_X T) = d /\ mcols (pa_X T) = ((d + 1) * n)%nat.
Definition rot_block (d : nat) (A : nat -> nat -> R) : Prop := orthonormal d d A /\ det d A = 1.
