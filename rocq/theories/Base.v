(** Outcomes of a C++ call, machine-integer conversions, small list helpers.

    No code of /repo is represented here; these are the conventions used by all
    [Model*.v] files. *)
From Coq Require Import List NArith ZArith Bool.
Import ListNotations.

(** A call returns normally, terminates the process in a defined way
    (glog CHECK / LOG(FATAL), or an uncaught exception), or has undefined
    behaviour (out-of-range access, integer division by zero, ...). *)
Inductive res (A : Type) : Type :=
| Ok (a : A)
| Abort
| UB.
Arguments Ok {A} a.
Arguments Abort {A}.
Arguments UB {A}.

Definition bind {A B} (x : res A) (f : A -> res B) : res B :=
  match x with
  | Ok a => f a
  | Abort => Abort
  | UB => UB
  end.

Declare Scope res_scope.
Delimit Scope res_scope with res.
Notation "'do' x <- e ; f" := (bind e (fun x => f))
  (at level 200, x name, e at level 100, f at level 200, right associativity) : res_scope.
Notation "'do' ' p <- e ; f" := (bind e (fun p => f))
  (at level 200, p strict pattern, e at level 100, f at level 200, right associativity) : res_scope.

(** glog [CHECK(b)]: continue or terminate. *)
Definition check {A} (b : bool) (k : res A) : res A := if b then k else Abort.

(** A precondition whose violation is undefined behaviour. *)
Definition require {A} (b : bool) (k : res A) : res A := if b then k else UB.

(** [std::optional::value()]: throws [bad_optional_access] when empty. *)
Definition opt_value {A} (o : option A) : res A :=
  match o with Some a => Ok a | None => Abort end.

(** [std::vector::operator[]] : undefined out of range. *)
Definition vec_get {A} (l : list A) (i : nat) : res A :=
  match nth_error l i with Some a => Ok a | None => UB end.

(** Machine integers: [unsigned int] has 32 bits, [size_t] 64. *)
Definition two32 : N := 4294967296%N.
Definition two64 : N := 18446744073709551616%N.
Definition u32 (x : N) : N := (x mod two32)%N.
Definition u64 (x : N) : N := (x mod two64)%N.

(** Fold a fallible step over a list, left to right. *)
Fixpoint foldM {A B} (f : A -> B -> res A) (a : A) (l : list B) : res A :=
  match l with
  | [] => Ok a
  | b :: l' => bind (f a b) (fun a' => foldM f a' l')
  end.

(** Filter with a fallible predicate. *)
Fixpoint filterM {A} (f : A -> res bool) (l : list A) : res (list A) :=
  match l with
  | [] => Ok []
  | x :: l' =>
      bind (f x) (fun b =>
      bind (filterM f l') (fun r => Ok (if b then x :: r else r)))
  end.

(** Replace the element at position [i] (no effect when out of range; callers
    guard the index). *)
Fixpoint list_update {A} (l : list A) (i : nat) (f : A -> A) : list A :=
  match l, i with
  | [], _ => []
  | x :: l', O => f x :: l'
  | x :: l', S i' => x :: list_update l' i' f
  end.
