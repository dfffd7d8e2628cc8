(** Scalars and matrices.  C++ [double] is represented by a type with the
    operations below; numeric code is written once and used with the instances
    at the end of the file and of NumFloat.v.  Rounding is present only in the
    [PrimFloat] instance there. *)
From Coq Require Import ZArith List Bool Reals.
Import ListNotations.

Class Num (S : Type) := {
  n0 : S; n1 : S;
  nadd : S -> S -> S; nsub : S -> S -> S; nmul : S -> S -> S; ndiv : S -> S -> S;
  nopp : S -> S; nsqrt : S -> S;
  nltb : S -> S -> bool;   (* operator<  *)
  nleb : S -> S -> bool;   (* operator<= *)
  neqb : S -> S -> bool;   (* operator== *)
  nofZ : Z -> S }.

Declare Scope num_scope.
Delimit Scope num_scope with num.
Infix "+" := nadd : num_scope.
Infix "-" := nsub : num_scope.
Infix "*" := nmul : num_scope.
Infix "/" := ndiv : num_scope.
Notation "- x" := (nopp x) : num_scope.

Section Generic.
Context {S : Type} `{Num S}.
Local Open Scope num_scope.

(** Decimal literals such as [1e-4]: quotient of two integers. *)
Definition nlit (p q : Z) : S := nofZ p / nofZ q.

(** [std::max(a,b)] is [(a < b) ? b : a], [std::min(a,b)] is [(b < a) ? b : a]. *)
Definition nmax (a b : S) : S := if nltb a b then b else a.
Definition nmin (a b : S) : S := if nltb b a then b else a.

(** Sum of [f 0 ... f (n-1)], left to right. *)
Fixpoint nsum (n : nat) (f : nat -> S) : S :=
  match n with O => n0 | Datatypes.S n' => nsum n' f + f n' end.

(** Sum over a list, left to right. *)
Definition nsumL {A} (f : A -> S) (l : list A) : S :=
  fold_left (fun s a => s + f a) l n0.

(** Dense matrices with run-time sizes ([Eigen::MatrixXd]). Coefficients
    outside the stated size are never looked at by well-formed code. *)
Record Mx := mkMx { mrows : nat; mcols : nat; mat :> nat -> nat -> S }.

Definition mzero (r c : nat) : Mx := mkMx r c (fun _ _ => n0).
Definition mident (n : nat) : Mx := mkMx n n (fun i j => if Nat.eqb i j then n1 else n0).
Definition mtr (A : Mx) : Mx := mkMx (mcols A) (mrows A) (fun i j => A j i).
Definition madd (A B : Mx) : Mx := mkMx (mrows A) (mcols A) (fun i j => A i j + B i j).
Definition msub (A B : Mx) : Mx := mkMx (mrows A) (mcols A) (fun i j => A i j - B i j).
Definition mopp (A : Mx) : Mx := mkMx (mrows A) (mcols A) (fun i j => - A i j).
Definition mscal (a : S) (A : Mx) : Mx := mkMx (mrows A) (mcols A) (fun i j => a * A i j).
Definition mmul (A B : Mx) : Mx :=
  mkMx (mrows A) (mcols B) (fun i j => nsum (mcols A) (fun k => A i k * B k j)).
(** [block(i0,j0,p,q)] *)
Definition mblock (A : Mx) (i0 j0 p q : nat) : Mx :=
  mkMx p q (fun i j => A (i0 + i)%nat (j0 + j)%nat).
(** assignment to [block(i0,j0,rows B,cols B)] *)
Definition msetblock (A : Mx) (i0 j0 : nat) (B : Mx) : Mx :=
  mkMx (mrows A) (mcols A)
       (fun i j => if (Nat.leb i0 i && Nat.ltb i (i0 + mrows B) &&
                       Nat.leb j0 j && Nat.ltb j (j0 + mcols B))%bool
                   then B (i - i0)%nat (j - j0)%nat else A i j).
(** [squaredNorm], [cwiseProduct(...).sum()] *)
Definition mfro2 (A : Mx) : S := nsum (mrows A) (fun i => nsum (mcols A) (fun j => A i j * A i j)).
Definition mdot (A B : Mx) : S := nsum (mrows A) (fun i => nsum (mcols A) (fun j => A i j * B i j)).

(** [norm()] *)
Definition mnorm (A : Mx) : S := nsqrt (mfro2 A).

(** Literal matrix from rows (for examples). *)
Definition mlit (r c : nat) (rows : list (list S)) : Mx :=
  mkMx r c (fun i j => nth j (nth i rows []) n0).
End Generic.
Arguments Mx : clear implicits.

(** Same shape and same coefficients inside the shape. *)
Definition mx_eq {S} (A B : Mx S) : Prop :=
  mrows A = mrows B /\ mcols A = mcols B /\
  forall i j, (i < mrows A)%nat -> (j < mcols A)%nat -> A i j = B i j.

(** Instance 1: the real numbers (division by zero is Coq's; theorems over [R]
    never rely on it: the divisor is shown non-zero). *)
#[global] Instance NumR : Num R := {
  n0 := 0%R; n1 := 1%R;
  nadd := Rplus; nsub := Rminus; nmul := Rmult; ndiv := Rdiv;
  nopp := Ropp; nsqrt := sqrt;
  nltb := fun a b => if Rlt_dec a b then true else false;
  nleb := fun a b => if Rle_dec a b then true else false;
  neqb := fun a b => if Req_EM_T a b then true else false;
  nofZ := IZR }.

(** Instance 2: reals with infinities and NaN, IEEE-754 comparison and special
    value rules, no rounding, zero taken unsigned (x/0 has the sign of x). *)
Inductive XR := Fin (r : R) | PInf | MInf | XNaN.

Definition xsign (r : R) : XR :=
  if Rlt_dec 0 r then PInf else if Rlt_dec r 0 then MInf else XNaN.

Definition xopp (a : XR) : XR :=
  match a with Fin r => Fin (- r) | PInf => MInf | MInf => PInf | XNaN => XNaN end.
Definition xadd (a b : XR) : XR :=
  match a, b with
  | XNaN, _ | _, XNaN => XNaN
  | Fin x, Fin y => Fin (x + y)
  | PInf, MInf | MInf, PInf => XNaN
  | PInf, _ | _, PInf => PInf
  | MInf, _ | _, MInf => MInf
  end.
Definition xmul (a b : XR) : XR :=
  match a, b with
  | XNaN, _ | _, XNaN => XNaN
  | Fin x, Fin y => Fin (x * y)
  | Fin x, PInf | PInf, Fin x => xsign x
  | Fin x, MInf | MInf, Fin x => xopp (xsign x)
  | PInf, PInf | MInf, MInf => PInf
  | PInf, MInf | MInf, PInf => MInf
  end.
Definition xdiv (a b : XR) : XR :=
  match a, b with
  | XNaN, _ | _, XNaN => XNaN
  | Fin x, Fin y => if Req_EM_T y 0 then xsign x else Fin (x / y)
  | Fin _, PInf | Fin _, MInf => Fin 0
  | PInf, Fin y => if Rlt_dec y 0 then MInf else PInf
  | MInf, Fin y => if Rlt_dec y 0 then PInf else MInf
  | PInf, PInf | PInf, MInf | MInf, PInf | MInf, MInf => XNaN
  end.
Definition xsqrt (a : XR) : XR :=
  match a with
  | Fin r => if Rlt_dec r 0 then XNaN else Fin (sqrt r)
  | PInf => PInf
  | MInf | XNaN => XNaN
  end.
Definition xltb (a b : XR) : bool :=
  match a, b with
  | XNaN, _ | _, XNaN => false
  | Fin x, Fin y => if Rlt_dec x y then true else false
  | MInf, MInf | PInf, PInf => false
  | MInf, _ | _, PInf => true
  | _, _ => false
  end.
Definition xeqb (a b : XR) : bool :=
  match a, b with
  | Fin x, Fin y => if Req_EM_T x y then true else false
  | PInf, PInf | MInf, MInf => true
  | _, _ => false
  end.
Definition xleb (a b : XR) : bool := xltb a b || xeqb a b.

#[global] Instance NumXR : Num XR := {
  n0 := Fin 0; n1 := Fin 1;
  nadd := xadd; nsub := fun a b => xadd a (xopp b); nmul := xmul; ndiv := xdiv;
  nopp := xopp; nsqrt := xsqrt;
  nltb := xltb; nleb := xleb; neqb := xeqb;
  nofZ := fun z => Fin (IZR z) }.

(** Instance 3: integers (no division; used to run examples of the bookkeeping
    code, which only copies and compares scalars). *)
#[global] Instance NumZ : Num Z := {
  n0 := 0%Z; n1 := 1%Z;
  nadd := Z.add; nsub := Z.sub; nmul := Z.mul; ndiv := Z.div;
  nopp := Z.opp; nsqrt := Z.sqrt;
  nltb := Z.ltb; nleb := Z.leb; neqb := Z.eqb;
  nofZ := fun z => z }.
