(** Property C69: the file of a sparse matrix. *)
From Coq Require Import List NArith String Sorting.Sorted.
From Verif Require Import Base ModelIO SpecIO ModelSparseFile SpecSparseFile ProofsSparseFile.
Import ListNotations.
Local Open Scope string_scope.

(** ** C69 *)
(** One line per stored entry, by rows and within a row by columns. *)
Theorem C69_lines {S} (show : S -> string) writable : forall fs M f,
  sparse_ok M -> (forall v, has nl (show v) = false) -> writable f = true ->
  exists c es, writeSparseMatrixToFile show writable fs M f f = Some c /\ lines c = map (entry_line show) es /\
    StronglySorted before es /\ forall i j v, In (i, j, v) es <-> stored M i j v.
Proof. exact (sparse_file show writable). Qed.
Print Assumptions C69_lines.

Example C69_lines_example : sparse_ok spN /\ (forall v, has nl (show_N v) = false) /\
  writeSparseMatrixToFile show_N (fun _ => true) (fun _ => None) spN "Q.txt" "Q.txt" =
  Some ("0,0,12" ++ NL ++ "0,2,7" ++ NL ++ "2,1,15" ++ NL).
Proof. exact (conj spN_ok (conj show_N_nl spN_text)). Qed.

(** Nothing else is written; and nothing at all if the file cannot be opened. *)
Theorem C69_rest {S} (show : S -> string) writable : forall fs M f n,
  n <> f \/ writable f = false -> writeSparseMatrixToFile show writable fs M f n = fs n.
Proof. exact (sparse_rest show writable). Qed.
Print Assumptions C69_rest.

(** Equal files come from the same stored entries, if texts tell the values apart. *)
Theorem C69_determines {S} (show : S -> string) writable : forall fs fs' M M' f,
  (forall v, has nl (show v) = false) -> writable f = true -> told show M M' ->
  writeSparseMatrixToFile show writable fs M f f = writeSparseMatrixToFile show writable fs' M' f f ->
  forall i j v, stored M i j v <-> stored M' i j v.
Proof. exact (sparse_determines show writable). Qed.
Print Assumptions C69_determines.

Example C69_determines_example : (forall v, has nl (show_N v) = false) /\ told show_N spN spN /\ stored spN 2 1 15%N.
Proof. exact (conj show_N_nl (conj spN_told (ex_intro _ [(1, 15)]%N (conj eq_refl (or_introl eq_refl))))). Qed.

(** The size of the matrix is not in the file. *)
Theorem C69_size_refuted {S} (show : S -> string) writable : forall fs M f, sparse_ok M ->
  exists M', sparse_ok M' /\ List.length (sp_outer M') = Datatypes.S (List.length (sp_outer M)) /\ (sp_cols M < sp_cols M')%N /\
    writeSparseMatrixToFile show writable fs M' f = writeSparseMatrixToFile show writable fs M f.
Proof. exact (sparse_size_lost show writable). Qed.
Print Assumptions C69_size_refuted.

(** Two values with one text cannot be told apart in the file. *)
Theorem C69_digits_refuted {S} (show : S -> string) writable : forall fs f (u v : S), show u = show v -> u <> v ->
  exists M M', sparse_ok M /\ sparse_ok M' /\ stored M 0 0 u /\ ~ stored M' 0 0 u /\
    writeSparseMatrixToFile show writable fs M' f = writeSparseMatrixToFile show writable fs M f.
Proof. exact (sparse_digits_lost show writable). Qed.
Print Assumptions C69_digits_refuted.

Example C69_digits_example : coarse 12 = coarse 15 /\ 12%N <> 15%N.
Proof. exact coarse_loses. Qed.
