(** The log files by column names (C44-C46). *)
From Coq Require Import List NArith ZArith Bool Arith Lia Ascii String Permutation Decimal DecimalString Reals Lra.
From Verif Require Import Base SMap Num Det ModelTypes ModelIO SpecCost SpecSolver SpecIO SpecIO2 ProofsPoseGraph ProofsIO ProofsQuat ProofsIO2.
Import ListNotations.
Local Open Scope string_scope.
Local Open Scope list_scope.
Local Open Scope res_scope.

Lemma concat_nil_cons a l : String.concat "" (a :: l) = (a ++ String.concat "" l)%string.
Proof. destruct l as [|b l]; cbn [String.concat]; [symmetry; apply app_nil_s|reflexivity]. Qed.
Lemma table_text h cols vs : table h cols vs = text (h :: map (fun v => comma (map v cols)) vs).
Proof.
  unfold table. change (map (fun v => String.concat "," (map v cols)) vs) with (map (fun v => comma (map v cols)) vs). generalize (h :: map (fun v => comma (map v cols)) vs). intros ls.
  induction ls as [|l ls IH]; [reflexivity|]. cbn [map]. rewrite concat_nil_cons, IH. cbn [text fold_right]. apply app_assoc_s.
Qed.

Local Open Scope R_scope.
(** ** Quaternions *)
Lemma turns_unit (q : Quat R) : qnorm2 q = 1 -> turns q (q_rot q).
Proof.
  destruct q as [x y z w]. unfold qnorm2. cbn [qx qy qz qw]. intros E a b c.
  unfold turns, qmul, qconj, qnorm2, q_rot, mlit. cbn [qx qy qz qw Num.mat nofZ n1 nadd nsub nmul NumR nth].
  assert (W : w * w = 1 - (x * x + y * y + z * z)) by lra. rewrite E. f_equal.
  - transitivity ((w * w + x * x - y * y - z * z) * a + 2 * (x * y - z * w) * b + 2 * (x * z + y * w) * c); [ring|rewrite W; ring].
  - transitivity ((w * w - x * x + y * y - z * z) * b + 2 * (x * y + z * w) * a + 2 * (y * z - x * w) * c); [ring|rewrite W; ring].
  - transitivity ((w * w - x * x - y * y + z * z) * c + 2 * (x * z - y * w) * a + 2 * (y * z + x * w) * b); [ring|rewrite W; ring].
  - ring.
Qed.
Lemma turns_scale q k M : k <> 0 -> turns (mkQuat (qx q / k) (qy q / k) (qz q / k) (qw q / k)) M -> turns q M.
Proof.
  intros K T a b c. specialize (T a b c). destruct q as [x y z w]. unfold qmul, qconj, qnorm2 in *. cbn [qx qy qz qw] in *.
  injection T as T1 T2 T3 T4.
  assert (G : forall l r, l / (k * k) = r / (k * k) -> l = r).
  { intros l r E. assert (kk : k * k <> 0) by (apply Rmult_integral_contrapositive; auto). apply (Rmult_eq_reg_r (/ (k * k))); [exact E|apply Rinv_neq_0_compat; auto]. }
  f_equal; apply G.
  - eapply eq_trans; [|eapply eq_trans; [exact T1|]]; field; auto.
  - eapply eq_trans; [|eapply eq_trans; [exact T2|]]; field; auto.
  - eapply eq_trans; [|eapply eq_trans; [exact T3|]]; field; auto.
  - eapply eq_trans; [|eapply eq_trans; [exact T4|]]; field; auto.
Qed.
Lemma turns_normalized (q : Quat R) : qnorm2 q <> 0 -> turns q (q_rot (q_normalize q)).
Proof.
  intros NZ. unfold q_normalize. cbn [nltb n0 nadd nmul ndiv nsqrt NumR]. fold (qnorm2 q).
  assert (P : 0 < qnorm2 q).
  { assert (0 <= qnorm2 q). { unfold qnorm2. pose proof (Rle_0_sqr (qx q)). pose proof (Rle_0_sqr (qy q)). pose proof (Rle_0_sqr (qz q)). pose proof (Rle_0_sqr (qw q)). unfold Rsqr in *. lra. } lra. }
  destruct (Rlt_dec 0 (qnorm2 q)); [|lra]. pose proof (sqrt_lt_R0 _ P) as SP. pose proof (sqrt_sqrt (qnorm2 q) (Rlt_le _ _ P)) as SS.
  apply (turns_scale q (sqrt (qnorm2 q))); [lra|]. apply turns_unit. set (s := sqrt (qnorm2 q)) in *. unfold qnorm2 in *. cbn [qx qy qz qw].
  transitivity ((qx q * qx q + qy q * qy q + qz q * qz q + qw q * qw q) / (s * s)); [field; lra|]. rewrite SS. field. lra.
Qed.
Lemma turns_ext q M N : (forall a b, (a < 3)%nat -> (b < 3)%nat -> M a b = N a b) -> turns q M -> turns q N.
Proof. intros E T x y z. rewrite (T x y z), !E by lia. reflexivity. Qed.

(** The quaternion written for a rotation. *)
Lemma quat_of_rotation (M : Mx R) : rotation 3 M -> qnorm2 (quat_of M) = 1 /\ turns (quat_of M) M.
Proof.
  intros HR. pose proof (quat_good M HR) as GQ. cbn beta zeta in GQ. pose proof (good_norm _ _ _ _ _ _ _ _ _ _ _ _ _ GQ) as NN.
  split; [exact NN|]. apply (turns_ext _ (q_rot (quat_of M))); [|apply turns_unit; exact NN].
  pose proof (rot_quat M HR) as (_ & _ & E). unfold reread_rot in E. destruct (quat_of M) as [x y z w]. cbn [qx qy qz qw] in *.
  rewrite normalize_unit in E by (cbn [qx qy qz qw]; exact NN). intros a b Ha Hb. apply E; cbn; auto.
Qed.

Section F.
Variable F : Fmt R.
Variables (dir : string) (writable : string -> bool).

(** ** Writing *)
Definition field_at (names vals : list string) (c : string) : string :=
  match find (fun p => String.eqb (fst p) c) (combine names vals) with Some p => snd p | None => "" end.

Lemma meas_row_cols m : meas3 m -> rotation 3 (mR m) ->
  exists v, meas_row F m = Ok (comma (map v meas_cols)) /\ meas_written F m v.
Proof.
  intros (R3 & C3 & T3 & T1) HR. unfold meas_row. rewrite R3, C3, T3. cbn [Nat.eqb andb require].
  match goal with |- context [comma ?l] => exists (field_at meas_cols l) end. split; [reflexivity|].
  destruct (quat_of_rotation (mR m) HR) as [A B].
  split; [reflexivity|]. split; [reflexivity|]. split; [reflexivity|]. split; [reflexivity|].
  split; [exists (quat_of (mR m)); split; [exact A|]; split; [exact B|]; repeat split|].
  split; [reflexivity|]. split; [reflexivity|]. split; [reflexivity|]. split; [reflexivity|]. split; [reflexivity|]. split; [destruct (mfixed m); reflexivity|reflexivity].
Qed.

Theorem meas_columns : forall fs ms filename, ms <> [] -> writable (dir ++ filename)%string = true -> Forall meas3 ms -> Forall (fun m => rotation 3 (mR m)) ms ->
  exists fs' vs, logMeasurements F dir writable fs ms filename = Ok fs' /\
    fs' (dir ++ filename)%string = Some (table (titles meas_cols) meas_cols vs) /\ Forall2 (meas_written F) ms vs.
Proof.
  intros fs ms filename NE W M3 RO.
  assert (RS : exists vs, mapM (meas_row F) ms = Ok (map (fun v => comma (map v meas_cols)) vs) /\ Forall2 (meas_written F) ms vs).
  { clear NE. induction ms as [|m ms IH]; [exists []; split; [reflexivity|constructor]|].
    inversion_clear M3 as [|? ? Q1 Q2]. inversion_clear RO as [|? ? Q3 Q4]. destruct (IH Q2 Q4) as (vs & E & H). destruct (meas_row_cols m Q1 Q3) as (v & E1 & H1).
    exists (v :: vs). cbn [mapM]. rewrite E1. cbn [bind]. rewrite E. cbn [bind]. split; [reflexivity|constructor; auto]. }
  destruct RS as (vs & E & H). destruct ms as [|m0 ms0]; [congruence|]. unfold logMeasurements. rewrite W. cbn [negb].
  inversion M3 as [|? ? (R3 & _) _]; subst. rewrite R3. cbn [Nat.eqb]. rewrite E. cbn [bind].
  eexists. exists vs. split; [reflexivity|]. split; [|exact H]. rewrite put_same, table_text. reflexivity.
Qed.

Lemma traj_row_cols (T : Mx R) i : rotation 3 (mblock T 0 (4 * i) 3 3) ->
  exists v, traj_row F T i = comma (map v traj_cols) /\ traj_written F T i v.
Proof.
  intros HR. unfold traj_row. cbv zeta. rewrite (Nat.mul_comm i 4).
  match goal with |- context [comma ?l] => exists (field_at traj_cols l) end. split; [reflexivity|].
  destruct (quat_of_rotation _ HR) as [A B]. assert (K : forall a, mblock T 0 (4 * i + 3) 3 1 a 0%nat = T a (4 * i + 3)%nat) by (intros a; cbn [mblock Num.mat]; f_equal; lia).
  split; [reflexivity|]. split.
  { exists (quat_of (mblock T 0 (4 * i) 3 3)). split; [exact A|]. split; [exact B|]. repeat split. }
  rewrite !K. split; [reflexivity|]. split; reflexivity.
Qed.
Theorem traj_columns : forall fs n (T : Mx R) filename, writable (dir ++ filename)%string = true ->
  (n < 1073741824)%N -> mrows T = 3%nat -> mcols T = (4 * N.to_nat n)%nat -> (forall i, (i < N.to_nat n)%nat -> rotation 3 (mblock T 0 (4 * i) 3 3)) ->
  exists fs' vs, logTrajectory F dir writable fs 3 n T filename = Ok fs' /\
    fs' (dir ++ filename)%string = Some (table (titles traj_cols) traj_cols vs) /\ List.length vs = N.to_nat n /\
    forall i v, nth_error vs i = Some v -> traj_written F T i v.
Proof.
  intros fs n T filename W Hn R3 C HR. unfold logTrajectory. cbn [Nat.eqb]. rewrite R3, C. cbn [Nat.eqb check].
  assert (E1 : (N.of_nat (4 * N.to_nat n) =? u32 (N.of_nat (3 + 1) * n))%N = true).
  { apply N.eqb_eq. unfold u32, two32. rewrite N.mod_small by lia. lia. }
  rewrite E1. cbn [check]. rewrite W. cbn [negb require orb]. destruct (Nat.leb_spec ((3 + 1) * N.to_nat n) (4 * N.to_nat n)); [|lia]. cbn [require].
  assert (RS : forall k s, (s + k <= N.to_nat n)%nat -> exists vs, map (traj_row F T) (seq s k) = map (fun v => comma (map v traj_cols)) vs /\ List.length vs = k /\
    forall i v, nth_error vs i = Some v -> traj_written F T (s + i) v).
  { induction k as [|k IH]; intros s Hs; [exists []; split; [reflexivity|]; split; [reflexivity|]; intros [|i] v Hv; discriminate|].
    destruct (IH (S s) ltac:(lia)) as (vs & E & L & Hv). destruct (traj_row_cols T s (HR s ltac:(lia))) as (v & E1' & Hv1).
    exists (v :: vs). cbn [seq map]. rewrite E, E1'. split; [reflexivity|]. split; [cbn; lia|]. intros [|i] w Hw; cbn in Hw.
    - injection Hw as <-. rewrite Nat.add_0_r. exact Hv1.
    - rewrite Nat.add_succ_r. apply Hv. exact Hw. }
  destruct (RS (N.to_nat n) 0%nat ltac:(lia)) as (vs & E & L & Hv).
  eexists. exists vs. split; [reflexivity|]. split; [rewrite put_same, E, table_text; reflexivity|]. split; [exact L|exact Hv].
Qed.

(** ** Reading *)
Lemma get_int s n l tok : is_id s n -> field_int (rest_of (s :: l), tok) = Ok (Z.of_N n, (rest_of l, s)).
Proof. intros [-> Hn]. apply f_int. exact Hn. Qed.
Lemma get_dbl s x l tok : plain s -> f_stod F s = Ok x -> field_dbl F (rest_of (s :: l), tok) = Ok (x, (rest_of l, s)).
Proof. intros A B. unfold field_dbl. rewrite next_ok by auto. cbn [snd]. rewrite B. reflexivity. Qed.
Lemma get_bool s b l tok : s = show_bool b -> field_int (rest_of (s :: l), tok) = Ok ((if b then 1 else 0)%Z, (rest_of l, s)).
Proof. intros ->. apply f_bool. Qed.
Lemma id_plain s n : is_id s n -> plain s.
Proof. intros [-> _]. apply show_plain. Qed.

Ltac num c := match goal with HN : forall c, In c _ -> is_number F (?v c) |- _ =>
  let P := fresh "P" in let x := fresh "x" in let E := fresh "E" in destruct (HN c ltac:(cbn; tauto)) as (P & x & E) end.

Lemma meas_line_read lw v tok : meas_readable F v -> has nl (comma (map v meas_cols)) = false /\
  exists m tok', meas_line F lw tok (comma (map v meas_cols)) = Ok (m, tok') /\ meas_read F lw v m.
Proof.
  intros (HI & HN & HB).
  destruct (HI "robot_src" ltac:(cbn; tauto)) as (r1 & I1). destruct (HI "pose_src" ltac:(cbn; tauto)) as (p1 & I2).
  destruct (HI "robot_dst" ltac:(cbn; tauto)) as (r2 & I3). destruct (HI "pose_dst" ltac:(cbn; tauto)) as (p2 & I4).
  num "qx". num "qy". num "qz". num "qw". num "tx". num "ty". num "tz". num "kappa". num "tau". num "weight".
  assert (EB : exists b, v "is_known_inlier" = show_bool b) by (destruct HB as [->| ->]; [exists false|exists true]; reflexivity). destruct EB as (b & EB).
  assert (PB : plain (v "is_known_inlier")) by (rewrite EB; apply bool_plain).
  split.
  { apply has_comma_plain. unfold meas_cols. cbn [map]. pose proof (id_plain _ _ I1). pose proof (id_plain _ _ I2). pose proof (id_plain _ _ I3). pose proof (id_plain _ _ I4).
    repeat (apply Forall_cons; [assumption|]). apply Forall_nil. }
  unfold meas_line. change (Some (comma (map v meas_cols))) with (rest_of (map v meas_cols)). unfold meas_cols. cbn [map].
  rewrite (get_int _ _ _ _ I1). cbn [bind]. rewrite (get_int _ _ _ _ I2). cbn [bind]. rewrite (get_int _ _ _ _ I3). cbn [bind]. rewrite (get_int _ _ _ _ I4). cbn [bind].
  do 9 (erewrite get_dbl by eassumption; cbn [bind]). rewrite (get_bool _ _ _ _ EB). cbn [bind]. erewrite get_dbl by eassumption. cbn [bind snd].
  eexists. eexists. split; [reflexivity|]. unfold meas_read. cbn [mr1 mr2 mp1 mp2 mkappa mtau mfixed mweight mR mt].
  destruct I1 as [J1 K1], I2 as [J2 K2], I3 as [J3 K3], I4 as [J4 K4]. rewrite !u32_show by assumption.
  split; [exact J1|]. split; [exact J2|]. split; [exact J3|]. split; [exact J4|]. split.
  { exists (mkQuat x x0 x1 x2). cbn [qx qy qz qw]. repeat (split; [assumption|]). apply turns_normalized. }
  repeat (split; [assumption|]). split; [rewrite EB; destruct b; reflexivity|]. split; [destruct lw; [assumption|reflexivity]|]. repeat split.
Qed.

Theorem meas_reads : forall fs filename header vs lw, fs filename = Some (table header meas_cols vs) -> has nl header = false -> Forall (meas_readable F) vs ->
  exists ms, loadMeasurements F fs filename lw = Ok ms /\ Forall2 (meas_read F lw) vs ms.
Proof.
  intros fs filename header vs lw E Hh HV. unfold loadMeasurements. rewrite E, table_text.
  assert (NL : Forall (fun l => has nl l = false) (header :: map (fun v => comma (map v meas_cols)) vs)).
  { constructor; auto. rewrite Forall_map. eapply Forall_impl; [|exact HV]. intros v Hv. apply (meas_line_read lw v "" Hv). }
  rewrite lines_text by exact NL. cbn [tl]. clear E NL. generalize "". induction HV as [|v vs Hv _ IH]; intros tok; [exists []; split; [reflexivity|constructor]|].
  destruct (meas_line_read lw v tok Hv) as (_ & m & tok' & E & R). destruct (IH tok') as (ms & Es & Rs).
  exists (m :: ms). cbn [map meas_lines]. rewrite E. cbn [bind]. rewrite Es. cbn [bind]. split; [reflexivity|constructor; auto].
Qed.

Definition pose_from (q : Quat R) (tx ty tz : R) : Mx R := msetblock (msetblock (mzero 3 4) 0 0 (q_rot (q_normalize q))) 0 3 (mlit 3 1 [[tx]; [ty]; [tz]]).
Definition pose_of (v : string -> string) (P : Mx R) : Prop := exists q tx ty tz, P = pose_from q tx ty tz /\
  f_stod F (v "qx") = Ok (qx q) /\ f_stod F (v "qy") = Ok (qy q) /\ f_stod F (v "qz") = Ok (qz q) /\ f_stod F (v "qw") = Ok (qw q) /\
  f_stod F (v "tx") = Ok tx /\ f_stod F (v "ty") = Ok ty /\ f_stod F (v "tz") = Ok tz.
Lemma traj_line_read v n tok : traj_readable F v n -> has nl (comma (map v traj_cols)) = false /\
  exists P tok', traj_line F tok (comma (map v traj_cols)) = Ok (n, P, tok') /\ pose_of v P.
Proof.
  intros (HI & HN). num "qx". num "qy". num "qz". num "qw". num "tx". num "ty". num "tz". split.
  { apply has_comma_plain. unfold traj_cols. cbn [map]. pose proof (id_plain _ _ HI). repeat (apply Forall_cons; [assumption|]). apply Forall_nil. }
  unfold traj_line. change (Some (comma (map v traj_cols))) with (rest_of (map v traj_cols)). unfold traj_cols. cbn [map].
  rewrite (get_int _ _ _ _ HI). cbn [bind]. do 7 (erewrite get_dbl by eassumption; cbn [bind]). cbn [snd]. destruct HI as [_ HI]. rewrite u32_show by assumption.
  eexists. eexists. split; [reflexivity|]. exists (mkQuat x x0 x1 x2), x3, x4, x5. split; [reflexivity|]. cbn [qx qy qz qw]. repeat (split; [assumption|]). assumption.
Qed.
Lemma pose_read v P T i : pose_of v P -> pose_block T i P -> traj_read F v T i.
Proof.
  intros (q & tx & ty & tz & -> & A1 & A2 & A3 & A4 & A5 & A6 & A7) PB. unfold traj_read.
  assert (E : forall a, (a < 3)%nat -> T a (4 * i + 3)%nat = nth a [tx; ty; tz] 0).
  { intros a Ha. rewrite PB by lia. unfold pose_from, msetblock. cbn [Num.mat mrows mcols mlit].
    destruct (Nat.ltb_spec a (0 + 3)); [|lia]. cbn [Nat.leb Nat.ltb andb Nat.sub]. destruct a as [|[|[|a]]]; [reflexivity..|lia]. }
  rewrite !E by lia. cbn [nth]. split; [|auto]. exists q. repeat (split; [assumption|]). intros NZ.
  apply (turns_ext _ (q_rot (q_normalize q))); [|apply turns_normalized; auto]. intros a b Ha Hb. rewrite PB by lia.
  unfold pose_from, msetblock. cbn [Num.mat mrows mcols mlit q_rot].
  destruct (Nat.leb_spec 3 b); [lia|]. rewrite andb_false_r. cbn [andb].
  destruct (Nat.ltb_spec a (0 + 3)) as [|L1]; [|lia]. destruct (Nat.ltb_spec b (0 + 3)) as [|L1]; [|lia]. cbn [Nat.leb andb]. rewrite !Nat.sub_0_r. reflexivity.
Qed.

Theorem traj_reads : forall fs filename header vs ids, fs (dir ++ filename)%string = Some (table header traj_cols vs) -> has nl header = false ->
  (N.of_nat (List.length vs) < 1073741824)%N -> Forall2 (traj_readable F) vs ids ->
  (Permutation ids (ids_upto (List.length vs)) ->
     exists T, loadTrajectory F dir fs filename = Ok (Some T) /\ mrows T = 3%nat /\ mcols T = (4 * List.length vs)%nat /\
       forall k v i, nth_error vs k = Some v -> nth_error ids k = Some (N.of_nat i) -> traj_read F v T i) /\
  (~ Permutation ids (ids_upto (List.length vs)) -> loadTrajectory F dir fs filename = Abort).
Proof.
  intros fs filename header vs ids E Hh Hn HV.
  set (ls := map (fun v => comma (map v traj_cols)) vs).
  assert (RR : Forall (fun l => has nl l = false) ls /\ forall tok, exists Ps, List.length Ps = List.length ids /\ traj_rows F tok ls (combine ids Ps) /\ Forall2 pose_of vs Ps).
  { unfold ls. clear E Hn ls. induction HV as [|v n vs ids Hv _ [IH1 IH2]]; [split; [constructor|]; intros tok; exists []; split; [reflexivity|split; constructor]|].
    split; [cbn [map]; constructor; auto; apply (traj_line_read v n "" Hv)|]. intros tok. destruct (traj_line_read v n tok Hv) as (_ & P & tok' & E & HP).
    destruct (IH2 tok') as (Ps & L & R & A). exists (P :: Ps). split; [cbn; lia|]. split; [cbn [map combine]; econstructor; eauto|constructor; auto]. }
  destruct RR as [NL RR]. destruct (RR "") as (Ps & L & R & A). clear RR.
  assert (EL : tl (lines (table header traj_cols vs)) = ls) by (rewrite table_text, lines_text; [reflexivity|constructor; auto]).
  assert (LL : List.length ls = List.length vs) by (unfold ls; apply map_length).
  assert (LI : List.length ids = List.length vs) by (clear -HV; induction HV; cbn; congruence).
  assert (Hf : few (tl (lines (table header traj_cols vs)))) by (rewrite EL; unfold few; rewrite LL; exact Hn).
  assert (FS : map fst (combine ids Ps) = ids).
  { clear -L. revert Ps L. induction ids as [|i ids IH]; intros [|P Ps] L; cbn in *; try lia; auto. f_equal. apply IH. lia. }
  assert (LC : List.length (combine ids Ps) = List.length vs) by (rewrite combine_length; lia).
  pose proof Hf as Hf'. rewrite EL in Hf'. split.
  - intros PM. destruct (body_ok F ls (combine ids Ps) Hf' R) as (T & ET & R3 & C4 & BK).
    { rewrite FS, LL. exact PM. }
    exists T. rewrite (load_body F dir fs filename _ E), EL, ET. split; [reflexivity|]. split; auto. split; [rewrite <- LL; exact C4|].
    intros k v i Hv Hi. assert (HP : exists P, nth_error Ps k = Some P /\ pose_of v P).
    { clear -A Hv. revert k Hv. induction A as [|w P vs Ps H A IH]; intros [|k] Hv; try discriminate; cbn in *; [injection Hv as <-; eauto|eauto]. }
    destruct HP as (P & HPk & HP). apply (pose_read v P); auto. apply BK.
    clear -Hi HPk. revert Ps k Hi HPk. induction ids as [|j ids IH]; intros Ps [|k] Hi HPk; try discriminate; destruct Ps as [|P' Ps]; try discriminate; cbn in *.
    + injection Hi as ->. injection HPk as ->. auto.
    + right. eapply IH; eauto.
  - intros NP. apply (load_rejects F dir fs filename _ (combine ids Ps) E Hf); [rewrite EL; exact R|]. rewrite FS, LC. exact NP.
Qed.
End F.
