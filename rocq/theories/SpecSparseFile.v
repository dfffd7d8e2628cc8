(** Vocabulary for files of sparse matrices. *)
From Coq Require Import List NArith String Sorting.Sorted.
From Verif Require Import Base ModelIO SpecIO SpecIO2 ModelSparseFile.
Import ListNotations.
Local Open Scope string_scope.

Section S.
Context {S : Type}.

(** Value [v] is stored at row [i], column [j]. *)
Definition stored (M : SpMx S) (i j : N) (v : S) : Prop :=
  exists row, nth_error (sp_outer M) (N.to_nat i) = Some row /\ In (j, v) row.

(** Eigen's invariant: in each row the columns increase and are in range. *)
Definition sparse_ok (M : SpMx S) : Prop :=
  forall row, In row (sp_outer M) ->
    StronglySorted N.lt (map fst row) /\ Forall (fun j => (j < sp_cols M)%N) (map fst row).

(** Reading order of positions. *)
Definition before (p q : N * N * S) : Prop :=
  (fst (fst p) < fst (fst q))%N \/ (fst (fst p) = fst (fst q) /\ (snd (fst p) < snd (fst q))%N).

Definition entry_line (show : S -> string) (e : N * N * S) : string :=
  decimal (fst (fst e)) ++ "," ++ decimal (snd (fst e)) ++ "," ++ show (snd e).

(** No two values stored in the matrices have the same text. *)
Definition told (show : S -> string) (M M' : SpMx S) : Prop :=
  forall i j v i' j' v', stored M i j v -> stored M' i' j' v' -> show v = show v' -> v = v'.
End S.
