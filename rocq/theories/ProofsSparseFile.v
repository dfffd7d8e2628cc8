(** Files of sparse matrices. *)
From Coq Require Import List NArith ZArith Bool Arith Lia Ascii String Sorting.Sorted.
From Verif Require Import Base ModelIO SpecIO SpecIO2 ModelSparseFile SpecSparseFile ProofsIO.
Import ListNotations.
Local Open Scope string_scope.

Section S.
Context {S : Type}.
Context (show : S -> string) (writable : string -> bool).
Implicit Types (M : SpMx S).

Definition line_ends (ls : list string) : string := fold_right (fun l s => l ++ NL ++ s) "" ls.

Lemma concat_lines (ls : list string) : String.concat "" (map (fun l => l ++ NL) ls) = line_ends ls.
Proof.
  induction ls as [|l ls IH]; [reflexivity|]. cbn [map line_ends fold_right]. fold (line_ends ls). rewrite <- IH.
  destruct (map (fun l => l ++ NL) ls) eqn:E.
  - cbn. rewrite <- app_nil_s at 1. rewrite app_assoc_s. reflexivity.
  - cbn [String.concat]. rewrite app_assoc_s. reflexivity.
Qed.
Lemma ends_app l1 l2 : line_ends (l1 ++ l2)%list = line_ends l1 ++ line_ends l2.
Proof. induction l1 as [|l l1 IH]; [reflexivity|]. cbn [app line_ends fold_right]. fold (line_ends (l1 ++ l2)%list) (line_ends l1). rewrite IH, !app_assoc_s. reflexivity. Qed.
Lemma lines_ends ls : Forall (fun l => has nl l = false) ls -> lines (line_ends ls) = ls.
Proof. induction 1 as [|l ls Hl _ IH]; [reflexivity|]. cbn [line_ends fold_right]. fold (line_ends ls). rewrite lines_line, IH; auto. Qed.

(** The entries from row [k] on, in the order of the loops. *)
Fixpoint entries (k : N) (rows : list (list (N * S))) : list (N * N * S) :=
  match rows with
  | [] => []
  | row :: rows' => (map (fun e => (k, fst e, snd e)) row ++ entries (k + 1) rows')%list
  end.

Lemma rows_entries rows : forall k, sparse_rows show k rows = line_ends (map (entry_line show) (entries k rows)).
Proof.
  induction rows as [|row rows IH]; intros k; [reflexivity|]. cbn [sparse_rows entries]. rewrite map_app, ends_app, IH. f_equal.
  unfold sparse_row. rewrite <- concat_lines, !map_map. f_equal. apply map_ext. intros e. unfold entry_line. cbn [fst snd].
  change decimal with show_N. rewrite !app_assoc_s. reflexivity.
Qed.

Lemma entries_In rows : forall k i j v,
  In (i, j, v) (entries k rows) <-> exists row, (k <= i)%N /\ nth_error rows (N.to_nat (i - k)) = Some row /\ In (j, v) row.
Proof.
  induction rows as [|row rows IH]; intros k i j v; cbn [entries].
  - split; [contradiction|]. intros (r & _ & E & _). destruct (N.to_nat (i - k)); discriminate.
  - rewrite in_app_iff, in_map_iff, IH. split.
    + intros [([j0 v0] & E & HI)|(r & L & E & HI)].
      * cbn [fst snd] in E. injection E as <- <- <-. exists row. split; [lia|]. rewrite N.sub_diag. auto.
      * exists r. split; [lia|]. replace (N.to_nat (i - k)) with (Datatypes.S (N.to_nat (i - (k + 1)))) by lia. auto.
    + intros (r & L & E & HI). destruct (N.eq_dec i k) as [->|NE].
      * rewrite N.sub_diag in E. cbn in E. injection E as <-. left. exists (j, v). auto.
      * right. exists r. split; [lia|]. replace (N.to_nat (i - k)) with (Datatypes.S (N.to_nat (i - (k + 1)))) in E by lia. auto.
Qed.

Lemma sorted_app {A} (R : A -> A -> Prop) l1 l2 : StronglySorted R l1 -> StronglySorted R l2 ->
  (forall x y, In x l1 -> In y l2 -> R x y) -> StronglySorted R (l1 ++ l2).
Proof.
  intros H1 H2 HX. induction H1 as [|a l1 _ IH F]; [exact H2|]. cbn [app]. constructor.
  - apply IH. intros. apply HX; [right|]; auto.
  - apply Forall_app. split; [exact F|]. apply Forall_forall. intros y Hy. apply HX; [left|]; auto.
Qed.

Lemma entries_sorted rows : (forall row, In row rows -> StronglySorted N.lt (map fst row)) ->
  forall k, StronglySorted before (entries k rows).
Proof.
  induction rows as [|row rows IH]; intros HS k; [constructor|]. cbn [entries]. apply sorted_app.
  - pose proof (HS row (or_introl eq_refl)) as SR. clear - SR. induction row as [|e row IH]; cbn [map]; [constructor|].
    cbn [map] in SR. inversion SR as [|? ? SR' F]; subst. constructor; [auto|].
    rewrite Forall_forall in *. intros q Hq. apply in_map_iff in Hq. destruct Hq as (e' & <- & He').
    right. cbn [fst snd]. split; [reflexivity|]. apply F. apply in_map. exact He'.
  - apply IH. intros. apply HS. right. auto.
  - intros x [[i j] v] Hx Hy. apply in_map_iff in Hx. destruct Hx as (e & <- & _). apply entries_In in Hy.
    destruct Hy as (_ & L & _). left. cbn. lia.
Qed.

Lemma entry_clean e : (forall v, has nl (show v) = false) -> has nl (entry_line show e) = false.
Proof.
  intros HS. unfold entry_line. rewrite !has_app, HS. destruct (show_plain (fst (fst e))) as [_ A], (show_plain (snd (fst e))) as [_ B].
  change decimal with show_N. rewrite A, B. reflexivity.
Qed.

Lemma stored_entries M i j v : stored M i j v <-> In (i, j, v) (entries 0 (sp_outer M)).
Proof.
  rewrite entries_In. unfold stored. rewrite N.sub_0_r. split; intros (r & A).
  - exists r. split; [lia|exact A].
  - exists r. tauto.
Qed.

Lemma written fs M f : writable f = true -> writeSparseMatrixToFile show writable fs M f f = Some (sparse_rows show 0 (sp_outer M)).
Proof. intros W. unfold writeSparseMatrixToFile. rewrite W. apply put_same. Qed.

Theorem sparse_file fs M f : sparse_ok M -> (forall v, has nl (show v) = false) -> writable f = true ->
  exists c es, writeSparseMatrixToFile show writable fs M f f = Some c /\ lines c = map (entry_line show) es /\
    StronglySorted before es /\ forall i j v, In (i, j, v) es <-> stored M i j v.
Proof.
  intros OK HS W. exists (sparse_rows show 0 (sp_outer M)), (entries 0 (sp_outer M)). split; [apply written; auto|].
  split; [|split].
  - rewrite rows_entries. apply lines_ends. apply Forall_map. apply Forall_forall. intros e _. apply entry_clean. exact HS.
  - apply entries_sorted. intros row Hr. apply (OK row Hr).
  - intros i j v. symmetry. apply stored_entries.
Qed.

Theorem sparse_rest fs M f n : n <> f \/ writable f = false -> writeSparseMatrixToFile show writable fs M f n = fs n.
Proof.
  intros H. unfold writeSparseMatrixToFile. destruct (writable f) eqn:W; cbn [negb]; [|reflexivity].
  destruct H as [H|]; [|discriminate]. apply put_other. exact H.
Qed.

(** A line determines row, column and text. *)
Lemma show_N_inj n m : show_N n = show_N m -> n = m.
Proof.
  intros E. destruct (to_uint_some n) as (_ & _ & _ & _ & A), (to_uint_some m) as (_ & _ & _ & _ & B). rewrite E in A. congruence.
Qed.
Lemma cut_inj a b x y : has "," a = false -> has "," b = false -> a ++ "," ++ x = b ++ "," ++ y -> a = b /\ x = y.
Proof.
  intros HA HB E. pose proof (cut_found "," a x HA) as CA. pose proof (cut_found "," b y HB) as CB.
  change (String "," x) with ("," ++ x) in CA. change (String "," y) with ("," ++ y) in CB. rewrite E, CB in CA.
  injection CA as -> ->. auto.
Qed.
Lemma line_inj e e' : entry_line show e = entry_line show e' -> fst e = fst e' /\ show (snd e) = show (snd e').
Proof.
  destruct e as [[i j] v], e' as [[i' j'] v']. unfold entry_line. cbn [fst snd]. change decimal with show_N. intros E.
  apply cut_inj in E; [|apply show_plain..]. destruct E as [E1 E]. apply cut_inj in E; [|apply show_plain..]. destruct E as [E2 E].
  apply show_N_inj in E1, E2. subst. auto.
Qed.

Theorem sparse_determines fs fs' M M' f : (forall v, has nl (show v) = false) -> writable f = true -> told show M M' ->
  writeSparseMatrixToFile show writable fs M f f = writeSparseMatrixToFile show writable fs' M' f f ->
  forall i j v, stored M i j v <-> stored M' i j v.
Proof.
  intros HS W T E. rewrite !written in E by auto. injection E as E. rewrite !rows_entries in E.
  apply (f_equal lines) in E. rewrite !lines_ends in E by (apply Forall_map, Forall_forall; intros; apply entry_clean; exact HS).
  assert (EE : entries 0 (sp_outer M) = entries 0 (sp_outer M')).
  { assert (T' : forall e e', In e (entries 0 (sp_outer M)) -> In e' (entries 0 (sp_outer M')) -> show (snd e) = show (snd e') -> snd e = snd e').
    { intros [[i j] v] [[i' j'] v'] A B. apply stored_entries in A, B. exact (T _ _ _ _ _ _ A B). }
    revert E T'. generalize (entries 0 (sp_outer M)) (entries 0 (sp_outer M')). clear.
    induction l as [|e l IH]; intros [|e' l'] E T; try discriminate; [reflexivity|]. cbn [map] in E. injection E as E1 E2.
    apply line_inj in E1. destruct E1 as [A B]. f_equal.
    - apply (T e e' (or_introl eq_refl) (or_introl eq_refl)) in B. destruct e, e'. cbn in *. congruence.
    - apply IH; auto. intros. apply T; [right|right|]; auto. }
  intros i j v. rewrite !stored_entries, EE. tauto.
Qed.

(** ** What is lost *)
Lemma rows_snoc rows : forall k, sparse_rows show k (rows ++ [[]]) = sparse_rows show k rows.
Proof. induction rows as [|r rows IH]; intros k; [reflexivity|]. cbn [app sparse_rows]. rewrite IH. reflexivity. Qed.

Theorem sparse_size_lost fs M f : sparse_ok M -> exists M', sparse_ok M' /\
  List.length (sp_outer M') = Datatypes.S (List.length (sp_outer M)) /\ (sp_cols M < sp_cols M')%N /\
  writeSparseMatrixToFile show writable fs M' f = writeSparseMatrixToFile show writable fs M f.
Proof.
  intros OK. exists (mkSpMx (sp_cols M + 1) (sp_outer M ++ [[]])). cbn [sp_outer sp_cols]. split; [|split; [|split]].
  - intros row Hr. cbn [sp_outer sp_cols] in *. apply in_app_iff in Hr. destruct Hr as [Hr|[<-|[]]].
    + destruct (OK row Hr) as [A B]. split; [exact A|]. eapply Forall_impl; [|exact B]. cbn. intros. lia.
    + split; constructor.
  - rewrite app_length. cbn. lia.
  - lia.
  - unfold writeSparseMatrixToFile. cbn [sp_outer]. rewrite rows_snoc. reflexivity.
Qed.

Theorem sparse_digits_lost fs f (u v : S) : show u = show v -> u <> v -> exists M M', sparse_ok M /\ sparse_ok M' /\
  stored M 0 0 u /\ ~ stored M' 0 0 u /\
  writeSparseMatrixToFile show writable fs M' f = writeSparseMatrixToFile show writable fs M f.
Proof.
  intros E NE. exists (mkSpMx 1 [[(0%N, u)]]), (mkSpMx 1 [[(0%N, v)]]).
  assert (OK : forall w : S, sparse_ok (mkSpMx 1 [[(0%N, w)]])).
  { intros w row [<-|[]]. cbn. split; repeat constructor. }
  split; [apply OK|]. split; [apply OK|]. split; [exists [(0%N, u)]; cbn; auto|]. split.
  - intros (row & R & HI). cbn in R. injection R as <-. destruct HI as [HI|[]]. congruence.
  - unfold writeSparseMatrixToFile, sparse_rows, sparse_row. cbn [sp_outer map fst snd]. rewrite E. reflexivity.
Qed.
End S.

(** ** Examples: values are integers, and integers shown without the last digit. *)
Definition spN : SpMx N := mkSpMx 3 [[(0, 12); (2, 7)]; []; [(1, 15)]]%N.
Lemma show_N_nl v : has nl (show_N v) = false.
Proof. apply show_plain. Qed.
Lemma spN_ok : sparse_ok spN.
Proof. intros row H. repeat destruct H as [<-|H]; try contradiction; cbn; split; repeat constructor; lia. Qed.
Lemma spN_text : writeSparseMatrixToFile show_N (fun _ => true) (fun _ => None) spN "Q.txt" "Q.txt" =
  Some ("0,0,12" ++ NL ++ "0,2,7" ++ NL ++ "2,1,15" ++ NL).
Proof. reflexivity. Qed.
Lemma spN_told : told show_N spN spN.
Proof. intros i j v i' j' v' _ _. apply show_N_inj. Qed.
Definition coarse (v : N) : string := show_N (v / 10).
Lemma coarse_loses : coarse 12 = coarse 15 /\ 12%N <> 15%N.
Proof. split; [reflexivity|discriminate]. Qed.
