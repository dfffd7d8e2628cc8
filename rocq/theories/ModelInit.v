(** Chordal initialisation and the centralised solver.
    Source: src/DPGO_solver.cpp:220-269, 305-333, src/DPGO_utils.cpp:435-462.
    External: SuiteSparse's sparse QR ([Eigen::SPQR], least squares), Eigen's
    singular value decomposition and determinant, the optimiser's libraries. *)
From Coq Require Import List NArith ZArith Bool Arith.
From Verif Require Import Base Num ModelTypes ModelPoseGraph ModelPoses ModelProblem ModelSolver ModelChordal ModelOptimizer.
Import ListNotations.
Local Open Scope res_scope.

Section Init.
Context {S : Type} `{Num S}.
Local Open Scope num_scope.

(** [Eigen::VectorXd] is a function on indices; [mvec B v] is [B * v]. *)
Definition mvec (B : Mx S) (v : nat -> S) (i : nat) : S := nsum (mcols B) (fun j => B i j * v j).

(** [leftCols(k)], [rightCols(k)] *)
Definition leftCols (B : Mx S) (k : nat) : Mx S := mkMx (mrows B) k (fun i j => B i j).
Definition rightCols (B : Mx S) (k : nat) : Mx S := mkMx (mrows B) k (fun i j => B i (mcols B - k + j)%nat).

(** [Eigen::Map] between a matrix with [d] rows and its column-major vector. *)
Definition vec_of (d : nat) (M : Mx S) (k : nat) : S := M (k mod d)%nat (k / d)%nat.
Definition unvec (d c : nat) (v : nat -> S) : Mx S := mkMx d c (fun i j => v (j * d + i)%nat).

(** [Eigen::SPQR<SparseMatrix> QR(B); QR.solve(c)]; [Eigen::JacobiSVD],
    [determinant]. *)
Context (qr_solve : Mx S -> (nat -> S) -> nat -> S) (svd_full : Mx S -> Mx S * Mx S) (determinant : Mx S -> S).

(** DPGO_utils.cpp:435-462 [recoverTranslations] *)
Definition recoverTranslations (B1 B2 R : Mx S) : res (Mx S) :=
  let d := mrows R in
  require (negb (d =? 0)%nat) (
  let n := (mcols R / d)%nat in
  require ((1 <=? n) && (d * (n - 1) <=? mcols B1) && (mcols B2 =? d * d * n) && (mrows B1 =? mrows B2))%nat (
  let rvec := vec_of d R in
  let B1red := rightCols B1 (d * (n - 1)) in
  let c := mvec B2 rvec in
  let tred := fun i => - qr_solve B1red c i in
  Ok (msetblock (mzero d n) 0 1 (unvec d (n - 1) tred)))).

(** DPGO_solver.cpp:250-252: rounding of block [i]. *)
Definition round_block (d : nat) (Rc : Mx S) (i : nat) : res (Mx S) :=
  let Q := projectToRotationGroup svd_full determinant (mblock Rc 0 (i * d) d d) in
  require (has_size Q d d) (Ok (msetblock Rc 0 (i * d) Q)).

(** DPGO_solver.cpp:259-264: assembly of pose [i]. *)
Definition join_pose (d : nat) (Rc tc : Mx S) (T : Mx S) (i : nat) : Mx S :=
  msetblock (msetblock T 0 (i * (d + 1)) (mblock Rc 0 (i * d) d d)) 0 (i * (d + 1) + d) (mblock tc 0 i d 1).

(** DPGO_solver.cpp:220-269 [chordalInitialization].  The matrix [Tchordal] is
    not initialised; every coefficient is written. *)
Definition chordalInitialization (ms : list (Meas S)) : res (PoseArr S) :=
  do '(dimension, num_poses) <- get_dimension_and_num_poses ms;
  do '(B1, B2, B3) <- constructBMatrices ms;
  let d := edges_dim ms in
  let d2 := (d * d)%nat in
  let n := N.to_nat num_poses in
  check (dimension =? d)%nat (
  require (negb (d2 =? 0)%nat) (
  check (num_poses =? u32 (N.of_nat (mcols B3)) / N.of_nat d2)%N (
  require ((1 <=? n) && (n * d2 <=? mcols B3))%nat (
  let B3red := rightCols B3 ((n - 1) * d2) in
  let cR := mvec (leftCols B3 d2) (vec_of d (mident d)) in
  let rvec := fun i => - qr_solve B3red cR i in
  let Rchordal := msetblock (msetblock (mzero d (d * n)) 0 0 (mident d)) 0 d (unvec d ((n - 1) * d) rvec) in
  do Rchordal <- foldM (round_block d) Rchordal (seq 1 (n - 1));
  do tchordal <- recoverTranslations B1 B2 Rchordal;
  check (mrows tchordal =? dimension)%nat (check (mcols tchordal =? n)%nat (
  let Tchordal := fold_left (join_pose d Rchordal tchordal) (seq 0 n) (mzero d (n * (d + 1))) in
  do output <- pa_new dimension dimension n;
  pa_setData output Tchordal)))))).

(** DPGO_solver.cpp:305-333 [solvePGO]; [measurements[0]] of an empty vector is
    not reached, get_dimension_and_num_poses aborts first.  The solver object is
    made for the problem at hand, so it may depend on the pose graph. *)
Context {St : Type} (L : PoseGraph S -> Lib S St).
Definition solvePGO (ms : list (Meas S)) (p : ROptParams S) (T0 : option (PoseArr S)) : res (PoseArr S) :=
  do '(dimension, num_poses) <- get_dimension_and_num_poses ms;
  do m0 <- vec_get ms 0;
  do T <- match T0 with Some T => Ok T | None => chordalInitialization ms end;
  check (pa_d T =? dimension)%nat (check (N.of_nat (pa_n T) =? num_poses)%N (
  do g <- newPoseGraph (u32 (mr1 m0)) dimension dimension;
  do g <- setMeasurements g ms;
  do '(_, X, _, _) <- optimize (L g) p g (pa_X T);
  pa_setData T X)).
End Init.
