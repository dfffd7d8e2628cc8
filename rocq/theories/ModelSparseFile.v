(** Writing a sparse matrix to a file.
    Source: src/DPGO_utils.cpp:82-98 [writeSparseMatrixToFile]; the matrix type is
    [Eigen::SparseMatrix<double, RowMajor>] (include/DPGO/DPGO_types.h:26).  Console
    output is left out. *)
From Coq Require Import List NArith String.
From Verif Require Import Base ModelIO.
Import ListNotations.
Local Open Scope string_scope.

(** A sparse matrix: number of columns, and for each row (outer index) the stored
    entries (column, value) in the order of [InnerIterator]. *)
Record SpMx (S : Type) := mkSpMx { sp_cols : N; sp_outer : list (list (N * S)) }.
Arguments mkSpMx {S}. Arguments sp_cols {S}. Arguments sp_outer {S}.

Section SparseFile.
Context {S : Type}.
(** Text form of a double by [operator<<] with the stream's default precision;
    whether [open] for writing succeeds. *)
Context (show : S -> string) (writable : string -> bool).

(** DPGO_utils.cpp:91-95, the inner loop for row [k] *)
Definition sparse_row (k : N) (row : list (N * S)) : string :=
  String.concat "" (map (fun e => show_N k ++ "," ++ show_N (fst e) ++ "," ++ show (snd e) ++ NL) row).
(** DPGO_utils.cpp:90-96, from row [k] on *)
Fixpoint sparse_rows (k : N) (rows : list (list (N * S))) : string :=
  match rows with
  | [] => ""
  | row :: rows' => sparse_row k row ++ sparse_rows (k + 1) rows'
  end.
(** DPGO_utils.cpp:82-98 *)
Definition writeSparseMatrixToFile (fs : FS) (M : SpMx S) (filename : string) : FS :=
  if negb (writable filename) then fs else put fs filename (sparse_rows 0 (sp_outer M)).
End SparseFile.
