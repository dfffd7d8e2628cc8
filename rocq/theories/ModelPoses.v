(** Arrays of (lifted) poses.
    Source: include/DPGO/manifold/Poses.h, src/manifold/Poses.cpp.
    Simplified: the [unsigned] members r_, d_, n_ are natural numbers, so the
    column offsets [index * (d_ + 1)] do not wrap; the r x (d+1)n matrix would
    have to have 2^32 columns for a difference. *)
From Coq Require Import List NArith ZArith Bool Arith.
From Verif Require Import Base Num ModelProblem.
Import ListNotations.
Local Open Scope res_scope.

Section Poses.
Context {S : Type} `{Num S}.

(** Poses.h:112-117 members of [LiftedPoseArray]. *)
Record PoseArr := mkPA { pa_r : nat; pa_d : nat; pa_n : nat; pa_X : Mx S }.

(** Poses.cpp:46-49 [pose(index) const] *)
Definition pa_pose (a : PoseArr) (i : nat) : res (Mx S) :=
  check (i <? pa_n a) (Ok (mblock (pa_X a) 0 (i * (pa_d a + 1)) (pa_r a) (pa_d a + 1))).

(** Poses.cpp:57-61 [rotation(index) const] *)
Definition pa_rot (a : PoseArr) (i : nat) : res (Mx S) :=
  check (i <? pa_n a)
    (let Xi := mblock (pa_X a) 0 (i * (pa_d a + 1)) (pa_r a) (pa_d a + 1) in
     Ok (mblock Xi 0 0 (pa_r a) (pa_d a))).

(** Poses.cpp:69-73 [translation(index) const] *)
Definition pa_trans (a : PoseArr) (i : nat) : res (Mx S) :=
  check (i <? pa_n a)
    (let Xi := mblock (pa_X a) 0 (i * (pa_d a + 1)) (pa_r a) (pa_d a + 1) in
     Ok (mblock Xi 0 (pa_d a) (pa_r a) 1)).

(** Assignment through the writable references returned by the non-const
    overloads (Poses.cpp:41-44, 51-55, 63-67).  An [Eigen::Ref] cannot be
    resized: assigning a value of another size is undefined. *)
Definition has_size (M : Mx S) (r c : nat) : bool := (mrows M =? r) && (mcols M =? c).
Definition pa_set_pose (a : PoseArr) (i : nat) (B : Mx S) : res PoseArr :=
  check (i <? pa_n a) (require (has_size B (pa_r a) (pa_d a + 1))
    (Ok (mkPA (pa_r a) (pa_d a) (pa_n a) (msetblock (pa_X a) 0 (i * (pa_d a + 1)) B)))).
Definition pa_set_rot (a : PoseArr) (i : nat) (B : Mx S) : res PoseArr :=
  check (i <? pa_n a) (require (has_size B (pa_r a) (pa_d a))
    (Ok (mkPA (pa_r a) (pa_d a) (pa_n a) (msetblock (pa_X a) 0 (i * (pa_d a + 1)) B)))).
Definition pa_set_trans (a : PoseArr) (i : nat) (B : Mx S) : res PoseArr :=
  check (i <? pa_n a) (require (has_size B (pa_r a) 1)
    (Ok (mkPA (pa_r a) (pa_d a) (pa_n a) (msetblock (pa_X a) 0 (i * (pa_d a + 1) + pa_d a) B)))).

(** Poses.cpp:14-23 constructor; the block assignment needs d <= r. *)
Definition pa_new (r d n : nat) : res PoseArr :=
  require (d <=? r) (
    let Yinit := msetblock (mzero r d) 0 0 (mident d) in
    foldM (fun a i => do a <- pa_set_rot a i Yinit; pa_set_trans a i (mzero r 1))
      (mkPA r d n (mzero r ((d + 1) * n))) (seq 0 n)).

(** Poses.cpp:29-33 [setData] *)
Definition pa_setData (a : PoseArr) (X : Mx S) : res PoseArr :=
  check (mrows X =? pa_r a) (check (mcols X =? (pa_d a + 1) * pa_n a)
    (Ok (mkPA (pa_r a) (pa_d a) (pa_n a) X))).

(** Distance of the i-th translations, Poses.cpp:80, 91; only d and n are
    checked to agree, so different r are undefined. *)
Definition trans_dist (a b : PoseArr) (i : nat) : res S :=
  do u <- pa_trans a i; do v <- pa_trans b i;
  require (same_size u v) (Ok (mnorm (msub u v))).

(** Poses.cpp:75-84 [averageTranslationDistance] *)
Definition averageTranslationDistance (a b : PoseArr) : res S :=
  check (pa_d a =? pa_d b) (check (pa_n a =? pa_n b) (
    do s <- foldM (fun s i => do x <- trans_dist a b i; Ok (nadd s x)) n0 (seq 0 (pa_n a));
    Ok (ndiv s (nofZ (Z.of_nat (pa_n a)))))).

(** Poses.cpp:86-94 [maxTranslationDistance] *)
Definition maxTranslationDistance (a b : PoseArr) : res S :=
  check (pa_d a =? pa_d b) (check (pa_n a =? pa_n b) (
    foldM (fun s i => do x <- trans_dist a b i; Ok (nmax s x)) n0 (seq 0 (pa_n a)))).

(** Poses.h:133-173, 178-215 [Pose]: a [PoseArr] with one pose and r = d.
    Poses.cpp:103-109 [Identity], [identity] *)
Definition pose_identity (d : nat) : res PoseArr := pa_new d d 1.

(** Poses.cpp:96-101 [Pose(const Matrix &)] *)
Definition pose_of_mx (T : Mx S) : res PoseArr :=
  do p <- pose_identity (mrows T);
  check (mrows T =? pa_d p) (check (mcols T =? pa_d p + 1) (pa_setData p T)).

(** Poses.cpp:122-127 [matrix] *)
Definition pose_matrix (p : PoseArr) : res (Mx S) :=
  do R <- pa_rot p 0; do t <- pa_trans p 0;
  Ok (msetblock (msetblock (mident (pa_d p + 1)) 0 0 R) 0 (pa_d p) t).

(** Poses.cpp:116-120 [operator*] *)
Definition pose_mul (p q : PoseArr) : res PoseArr :=
  check (pa_d p =? pa_d q) (
    do A <- pose_matrix p; do B <- pose_matrix q;
    pose_of_mx (mblock (mmul A B) 0 0 (pa_d p) (pa_d p + 1))).

(** Poses.cpp:111-114 [inverse]; [minv] is Eigen's [Matrix::inverse]. *)
Definition pose_inverse (minv : Mx S -> Mx S) (p : PoseArr) : res PoseArr :=
  do A <- pose_matrix p;
  pose_of_mx (mblock (minv A) 0 0 (pa_d p) (pa_d p + 1)).

End Poses.
Arguments PoseArr : clear implicits.
