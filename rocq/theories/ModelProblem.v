(** The quadratic problem of one robot.
    Source: src/QuadraticProblem.cpp, and computeMeasurementError of
    src/DPGO_utils.cpp.  The ROPTLIB variable classes are replaced by the
    matrices they hold; the Riemannian projection is in ModelManifold. *)
From Coq Require Import List NArith ZArith Bool.
From Verif Require Import Base Num ModelTypes ModelPoseGraph.
Import ListNotations.
Local Open Scope res_scope.

Section Problem.
Context {S : Type} `{Num S}.

(** Eigen products and coefficient-wise operations on matrices of different
    size are undefined (assertions are off in release builds). *)
Definition same_size (A B : Mx S) : bool :=
  Nat.eqb (mrows A) (mrows B) && Nat.eqb (mcols A) (mcols B).
Definition can_mul (A B : Mx S) : bool := Nat.eqb (mcols A) (mrows B).

(** The matrices used by the problem (PoseGraph.cpp:345-362). *)
Definition qp_data (g : PoseGraph S) : res (PoseGraph S * Mx S * Mx S) :=
  do '(g, Q) <- quadraticMatrix g;
  do '(g, G) <- linearMatrix g;
  Ok (g, Q, G).

(** QuadraticProblem.cpp:29-41 [f] *)
Definition qp_f (g : PoseGraph S) (Y : Mx S) : res (PoseGraph S * S) :=
  check (Nat.eqb (mrows Y) (pg_r g)) (
  check (Nat.eqb (mcols Y) (Datatypes.S (pg_d g) * N.to_nat (pg_n g))) (
  do '(g, Q, G) <- qp_data g;
  require (can_mul Y Q && same_size (mmul Y Q) Y && same_size Y G)
    (Ok (g, nadd (nmul (nlit 1%Z 2%Z) (mdot (mmul Y Q) Y)) (mdot Y G))))).

(** QuadraticProblem.cpp:43-47 [EucGrad] *)
Definition qp_grad (g : PoseGraph S) (X : Mx S) : res (PoseGraph S * Mx S) :=
  do '(g, Q, G) <- qp_data g;
  require (can_mul X Q && same_size (mmul X Q) G) (Ok (g, madd (mmul X Q) G)).

(** QuadraticProblem.cpp:49-54 [EucHessianEta] *)
Definition qp_hess (g : PoseGraph S) (V : Mx S) : res (PoseGraph S * Mx S) :=
  do '(g, Q) <- quadraticMatrix g;
  require (can_mul V Q) (Ok (g, mmul V Q)).

(** DPGO_utils.cpp:501-507 [computeMeasurementError] *)
Definition computeMeasurementError (m : Meas S) (R1 t1 R2 t2 : Mx S) : res S :=
  require (can_mul R1 (mR m) && same_size (mmul R1 (mR m)) R2 && same_size t2 t1 &&
           can_mul R1 (mt m) && same_size t2 (mmul R1 (mt m))) (
    let rot := mfro2 (msub (mmul R1 (mR m)) R2) in
    let tra := mfro2 (msub (msub t2 t1) (mmul R1 (mt m))) in
    Ok (nadd (nmul (mkappa m) rot) (nmul (mtau m) tra))).
End Problem.
