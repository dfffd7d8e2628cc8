(** Text, fields and the measurement log (C45). *)
From Coq Require Import List NArith ZArith Bool Arith Lia Ascii String Decimal DecimalString DecimalN DecimalPos.
From Verif Require Import Base SMap Num ModelTypes ModelIO SpecIO.
Import ListNotations.
Local Open Scope string_scope.
Local Open Scope res_scope.

(** ** Strings *)
Lemma app_nil_s s : s ++ "" = s.
Proof. induction s; cbn; congruence. Qed.
Lemma app_assoc_s a b c : (a ++ b) ++ c = a ++ (b ++ c).
Proof. induction a; cbn; congruence. Qed.
Lemma has_app c a b : has c (a ++ b) = has c a || has c b.
Proof. induction a; cbn; [reflexivity|]. rewrite IHa, orb_assoc. reflexivity. Qed.

Lemma lines_line l s : has nl l = false -> lines (l ++ NL ++ s) = l :: lines s.
Proof.
  induction l as [|c l IH]; intros Hl; [reflexivity|]. cbn [has] in Hl. apply orb_false_iff in Hl. destruct Hl as [Hc Hl].
  cbn [append lines]. rewrite Hc. rewrite (IH Hl). reflexivity.
Qed.
Lemma lines_text ls : Forall (fun l => has nl l = false) ls -> lines (text ls) = ls.
Proof. induction 1 as [|l ls Hl _ IH]; [reflexivity|]. cbn [text fold_right]. change (fold_right _ _ ls) with (text ls). rewrite lines_line, IH; auto. Qed.

Lemma cut_found c p r : has c p = false -> cut_at c (p ++ String c r) = (p, Some r).
Proof.
  induction p as [|a p IH]; cbn [has append cut_at]; intros Hp; [rewrite Ascii.eqb_refl; reflexivity|].
  apply orb_false_iff in Hp. destruct Hp as [Ha Hp]. rewrite Ha, (IH Hp). reflexivity.
Qed.
Lemma cut_none c p : has c p = false -> cut_at c p = (p, None).
Proof.
  induction p as [|a p IH]; cbn [has cut_at]; intros Hp; [reflexivity|].
  apply orb_false_iff in Hp. destruct Hp as [Ha Hp]. rewrite Ha, (IH Hp). reflexivity.
Qed.

Definition rest_of (l : list string) : option string := match l with [] => None | _ => Some (comma l) end.
Lemma next_ok a l tok : plain a -> next_field (rest_of (a :: l), tok) = (rest_of l, a).
Proof.
  intros [Ha _]. unfold next_field. cbn [fst rest_of]. destruct l as [|b l].
  - cbn [comma String.concat]. rewrite cut_none; auto.
  - change (comma (a :: b :: l)) with (a ++ "," ++ comma (b :: l)). change ("," ++ comma (b :: l)) with (String "," (comma (b :: l))).
    rewrite cut_found; auto.
Qed.
Lemma has_comma_plain l : Forall plain l -> has nl (comma l) = false.
Proof.
  induction 1 as [|a l [_ Ha] Hl IH]; [reflexivity|]. destruct l as [|b l]; [exact Ha|].
  change (comma (a :: b :: l)) with (a ++ "," ++ comma (b :: l)). rewrite !has_app, Ha, IH. reflexivity.
Qed.

(** ** Integers *)
Fixpoint uval (u : uint) (acc : N) : N :=
  match u with
  | Nil => acc
  | D0 u => uval u (10 * acc + 0) | D1 u => uval u (10 * acc + 1) | D2 u => uval u (10 * acc + 2) | D3 u => uval u (10 * acc + 3)
  | D4 u => uval u (10 * acc + 4) | D5 u => uval u (10 * acc + 5) | D6 u => uval u (10 * acc + 6) | D7 u => uval u (10 * acc + 7)
  | D8 u => uval u (10 * acc + 8) | D9 u => uval u (10 * acc + 9)
  end.
Lemma uval_acc u : forall p, uval u (Npos p) = Npos (Pos.of_uint_acc u p).
Proof. induction u; intros p; cbn [uval Pos.of_uint_acc]; [reflexivity|..]; rewrite <- IHu; f_equal; lia. Qed.
Lemma uval_of u : uval u 0 = N.of_uint u.
Proof.
  induction u; unfold N.of_uint in *; cbn [uval Pos.of_uint]; try reflexivity; [exact IHu|..];
  match goal with |- uval _ (10 * 0 + Npos ?p) = _ => change (10 * 0 + Npos p)%N with (Npos p) end; apply uval_acc.
Qed.
Lemma read_uint u : forall acc, read_digits (NilEmpty.string_of_uint u) acc = uval u acc.
Proof. induction u; intros acc; [reflexivity|..]; cbn [NilEmpty.string_of_uint uval]; rewrite <- IHu; reflexivity. Qed.
Lemma to_uint_some n : exists c s, show_N n = String c s /\ (exists k, digit_of c = Some k) /\ read_digits (show_N n) 0 = n.
Proof.
  unfold show_N, NilZero.string_of_uint. pose proof (DecimalN.Unsigned.of_to n) as E. rewrite <- uval_of, <- read_uint in E.
  destruct (N.to_uint n); cbn [NilEmpty.string_of_uint] in *; [exists "0"%char, ""; split; [reflexivity|split; [eexists; reflexivity|exact E]]|..];
    (eexists; eexists; split; [reflexivity|split; [eexists; reflexivity|exact E]]).
Qed.
Lemma digit_not_special c k : digit_of c = Some k -> is_space c = false /\ c <> "-"%char /\ c <> "+"%char /\ c <> ","%char /\ c <> nl.
Proof.
  intros E. repeat split; try (intros ->; discriminate E). unfold digit_of, is_space in *.
  destruct c as [[] [] [] [] [] [] [] []]; try reflexivity; discriminate E.
Qed.
Lemma stoi_show n : small_id n -> stoi (show_N n) = Ok (Z.of_N n).
Proof.
  intros Hn. destruct (to_uint_some n) as (c & s & E & [k Ek] & Er). unfold stoi. rewrite E in *.
  destruct (digit_not_special _ _ Ek) as (A & B & C & _). cbn [skip_space]. rewrite A.
  assert (R : option_map Z.of_N (read_nat (String c s)) = Some (Z.of_N n)). { cbn [read_nat]. rewrite Ek, Er. reflexivity. }
  assert (I : int_ok (Z.of_N n) = true). { unfold int_ok, small_id in *. apply andb_true_iff. split; apply Z.leb_le; lia. }
  destruct c as [[] [] [] [] [] [] [] []]; try (rewrite R, I; reflexivity); try (exfalso; apply B; reflexivity); exfalso; apply C; reflexivity.
Qed.
Lemma stoi_show_big n : ~ small_id n -> stoi (show_N n) = Abort.
Proof.
  intros Hn. destruct (to_uint_some n) as (c & s & E & [k Ek] & Er). unfold stoi. rewrite E in *.
  destruct (digit_not_special _ _ Ek) as (A & B & C & _). cbn [skip_space]. rewrite A.
  assert (R : option_map Z.of_N (read_nat (String c s)) = Some (Z.of_N n)). { cbn [read_nat]. rewrite Ek, Er. reflexivity. }
  assert (I : int_ok (Z.of_N n) = false). { unfold int_ok, small_id in *. apply andb_false_iff. right. apply Z.leb_gt. lia. }
  destruct c as [[] [] [] [] [] [] [] []]; try (rewrite R, I; reflexivity); try (exfalso; apply B; reflexivity); exfalso; apply C; reflexivity.
Qed.
Lemma uint_plain u : plain (NilEmpty.string_of_uint u).
Proof. split; (induction u; cbn [NilEmpty.string_of_uint has]; [reflexivity|..]; rewrite IHu; reflexivity). Qed.
Lemma show_plain n : plain (show_N n).
Proof.
  unfold show_N, NilZero.string_of_uint. destruct (N.to_uint n) eqn:E; [split; reflexivity|..]; apply (uint_plain (_ _)).
Qed.
Lemma u32_show n : small_id n -> to_u32 (Z.of_N n) = n.
Proof. unfold small_id, to_u32. intros Hn. rewrite Z.mod_small by lia. apply N2Z.id. Qed.
Lemma bool_plain b : plain (show_bool b).
Proof. destruct b; split; reflexivity. Qed.
Lemma stoi_bool b : stoi (show_bool b) = Ok (if b then 1 else 0)%Z.
Proof. destruct b; reflexivity. Qed.

Section P.
Context {S : Type} `{Num S}.
Variable F : Fmt S.
Variable rnd : S -> S.
Ltac forall_split := repeat match goal with Hf : Forall _ (_ :: _) |- _ => inversion_clear Hf end.

Lemma f_int n l tok : small_id n -> field_int (rest_of (show_N n :: l), tok) = Ok (Z.of_N n, (rest_of l, show_N n)).
Proof. intros Hn. unfold field_int. rewrite next_ok by apply show_plain. cbn [snd]. rewrite stoi_show; auto. Qed.
Lemma f_bool b l tok : field_int (rest_of (show_bool b :: l), tok) = Ok ((if b then 1 else 0)%Z, (rest_of l, show_bool b)).
Proof. unfold field_int. rewrite next_ok by apply bool_plain. cbn [snd]. rewrite stoi_bool. reflexivity. Qed.
Lemma f_dbl x l tok : fmt_at F rnd x -> field_dbl F (rest_of (f_show F x :: l), tok) = Ok (rnd x, (rest_of l, f_show F x)).
Proof. intros [A B]. unfold field_dbl. rewrite next_ok by auto. cbn [snd]. rewrite B. reflexivity. Qed.

Lemma row_ok m : meas3 m -> Forall (fmt_at F rnd) (meas_nums m) -> exists row, meas_row F m = Ok row /\ has nl row = false /\
  (small_ids m -> forall lw tok, exists m' tok', meas_line F lw tok row = Ok (m', tok') /\ reread rnd lw m m').
Proof.
  intros (R3 & C3 & T3 & T1) HF. unfold meas_nums in HF. cbn zeta in HF. forall_split. unfold meas_row. rewrite R3, C3, T3. cbn [Nat.eqb andb require].
  eexists. split; [reflexivity|]. split.
  - apply has_comma_plain. repeat constructor; first [apply show_plain|apply bool_plain|match goal with Hf : fmt_at F rnd ?x |- has _ (f_show F ?x) = false => apply Hf end].
  - intros (S1 & S2 & S3 & S4) lw tok. unfold meas_line.
    match goal with |- context [field_int (Some (comma ?l), tok)] => change (Some (comma l)) with (rest_of l) end.
    do 4 (rewrite f_int by assumption; cbn [bind]). do 9 (rewrite f_dbl by assumption; cbn [bind]). rewrite f_bool. cbn [bind]. rewrite f_dbl by assumption. cbn [bind snd].
    eexists. eexists. split; [reflexivity|]. unfold reread. cbn [mr1 mr2 mp1 mp2 mkappa mtau mfixed mweight mR mt].
    rewrite !u32_show by assumption. repeat (split; [reflexivity|]). split; [destruct (mfixed m); reflexivity|].
    split; [reflexivity|]. split; [reflexivity|]. split; [reflexivity|]. split; [reflexivity|].
    intros a Ha. destruct a as [|[|[|a]]]; [reflexivity..|lia].
Qed.

Lemma rows_ok ms : Forall meas3 ms -> Forall (fun m => Forall (fmt_at F rnd) (meas_nums m)) ms -> exists rows, mapM (meas_row F) ms = Ok rows /\ Forall (fun l => has nl l = false) rows /\
  (Forall small_ids ms -> forall lw tok, exists ms', meas_lines F lw tok rows = Ok ms' /\ Forall2 (reread rnd lw) ms ms').
Proof.
  induction 1 as [|m ms Hm _ IH]; intros HF; [exists []; repeat split; auto; intros _ lw tok; exists []; split; auto; reflexivity|].
  inversion_clear HF as [|? ? HF1 HF2]. destruct (row_ok m Hm HF1) as (row & E & N & L). destruct (IH HF2) as (rows & Es & Ns & Ls).
  exists (row :: rows). cbn [mapM]. rewrite E. cbn [bind]. rewrite Es. cbn [bind]. split; [reflexivity|]. split; [constructor; auto|].
  intros Sm lw tok. inversion_clear Sm as [|? ? S1 S2]. destruct (L S1 lw tok) as (m' & tok' & E' & R'). destruct (Ls S2 lw tok') as (ms' & Es' & Rs').
  exists (m' :: ms'). cbn [meas_lines]. rewrite E'. cbn [bind]. rewrite Es'. cbn [bind]. split; auto.
Qed.

Lemma put_same fs name c : put fs name c name = Some c.
Proof. unfold put. rewrite String.eqb_refl. reflexivity. Qed.
Lemma put_other fs name c n : n <> name -> put fs name c n = fs n.
Proof. intros E. unfold put. destruct (String.eqb_spec n name); congruence. Qed.

Theorem meas_roundtrip dir writable : forall fs ms filename lw, ms <> [] -> writable (dir ++ filename) = true ->
  Forall meas3 ms -> Forall small_ids ms -> Forall (fun m => Forall (fmt_at F rnd) (meas_nums m)) ms ->
  exists fs', logMeasurements F dir writable fs ms filename = Ok fs' /\
    (forall n, n <> dir ++ filename -> fs' n = fs n) /\
    exists ms', loadMeasurements F fs' (dir ++ filename) lw = Ok ms' /\ Forall2 (reread rnd lw) ms ms'.
Proof.
  intros fs ms filename lw NE W M3 SI HF. destruct (rows_ok ms M3 HF) as (rows & E & N & L). destruct (L SI lw "") as (ms' & E' & R').
  destruct ms as [|m0 ms0]; [congruence|]. unfold logMeasurements. rewrite W. cbn [negb].
  inversion M3 as [|? ? (R3 & _) _]; subst. rewrite R3. cbn [Nat.eqb]. rewrite E. cbn [bind].
  eexists. split; [reflexivity|]. split; [intros n Hn; apply put_other; auto|]. exists ms'. split; auto.
  unfold loadMeasurements. rewrite put_same. rewrite lines_text; [exact E'|]. constructor; auto.
Qed.
End P.

Section Q.
Context {S : Type} `{Num S}.
Variable F : Fmt S.
Variables (dir : string) (writable : string -> bool).

Theorem meas_2d : forall fs m ms filename lw, writable (dir ++ filename) = true -> mrows (mR m) = 2%nat ->
  exists fs', logMeasurements F dir writable fs (m :: ms) filename = Ok fs' /\ fs' (dir ++ filename) = Some "" /\
    (forall n, n <> dir ++ filename -> fs' n = fs n) /\ loadMeasurements F fs' (dir ++ filename) lw = Ok [].
Proof.
  intros fs m ms filename lw W R2. unfold logMeasurements. rewrite W, R2. cbn [negb Nat.eqb]. eexists. split; [reflexivity|].
  unfold loadMeasurements. rewrite put_same. split; [reflexivity|]. split; [intros; apply put_other; auto|reflexivity].
Qed.
Theorem meas_none : forall fs filename, logMeasurements F dir writable fs [] filename = Ok fs.
Proof. reflexivity. Qed.
Theorem meas_missing : forall fs filename lw, fs filename = None -> loadMeasurements F fs filename lw = Ok [].
Proof. intros fs filename lw E. unfold loadMeasurements. rewrite E. reflexivity. Qed.
End Q.
