(** The trajectory log (C46), and exact round trips over the reals. *)
From Coq Require Import List NArith ZArith Bool Arith Lia Ascii String Permutation Reals Lra.
From Verif Require Import Base SMap Num Det ModelTypes ModelIO SpecCost SpecSolver SpecIO ProofsPoseGraph ProofsIO ProofsQuat.
Import ListNotations.
Local Open Scope string_scope.
Local Open Scope res_scope.

Section P.
Context {S : Type} `{Num S}.
Variable F : Fmt S.
Variables (dir : string) (writable : string -> bool).

Lemma line_shape tok l id T tok' : traj_line F tok l = Ok (id, T, tok') -> mrows T = 3%nat /\ mcols T = 4%nat.
Proof.
  unfold traj_line. intros E. apply bind_Ok in E. destruct E as ([? ?] & _ & E).
  do 7 (apply bind_Ok in E; destruct E as ([? ?] & _ & E)). injection E as _ <- _. auto.
Qed.
Lemma rows_shape tok ls rows : traj_rows F tok ls rows -> Forall (fun kv => mrows (snd kv) = 3%nat /\ mcols (snd kv) = 4%nat) rows.
Proof. induction 1; constructor; auto. eapply line_shape; eauto. Qed.
Lemma rows_length tok ls rows : traj_rows F tok ls rows -> List.length rows = List.length ls.
Proof. induction 1; cbn; auto. Qed.

Implicit Types tm rows : list (N * Mx S).
Lemma get_app tm1 tm2 i : tm_get (tm1 ++ tm2) i = if existsb (fun kv => (fst kv =? i)%N) tm1 then tm_get tm1 i else tm_get tm2 i.
Proof. induction tm1 as [|[k T] tm1 IH]; cbn [app tm_get existsb fst]; [reflexivity|]. destruct (k =? i)%N; cbn [orb]; auto. Qed.
Lemma get_notin tm i : existsb (fun kv => (fst kv =? i)%N) tm = false -> tm_get tm i = Abort.
Proof. induction tm as [|[k T] tm IH]; cbn [tm_get existsb fst]; [reflexivity|]. destruct (k =? i)%N; [discriminate|auto]. Qed.
Lemma get_in tm i : existsb (fun kv => (fst kv =? i)%N) tm = true -> exists T, tm_get tm i = Ok T /\ In (i, T) tm.
Proof.
  induction tm as [|[k T] tm IH]; cbn [tm_get existsb fst]; [discriminate|]. destruct (N.eqb_spec k i) as [->|]; [intros _; exists T; split; [|left]; auto|].
  intros E. destruct (IH E) as (T' & A & B). exists T'. split; [|right]; auto.
Qed.
Lemma in_exists tm i : In i (map fst tm) <-> existsb (fun kv => (fst kv =? i)%N) tm = true.
Proof.
  rewrite existsb_exists, in_map_iff. split; intros (kv & A & B); exists kv; [split; auto; apply N.eqb_eq; auto|split; auto].
  apply N.eqb_eq. auto.
Qed.
Lemma get_unique tm i T : NoDup (map fst tm) -> In (i, T) tm -> tm_get tm i = Ok T.
Proof.
  induction tm as [|[k T'] tm IH]; [contradiction|]. cbn [map fst tm_get]. intros ND [E|E].
  - injection E as -> ->. rewrite N.eqb_refl. reflexivity.
  - inversion_clear ND as [|? ? NI ND']. destruct (N.eqb_spec k i) as [->|]; [|auto]. exfalso. apply NI. apply in_map_iff. exists (i, T). auto.
Qed.

Lemma lines_rows tok ls tm tm' : traj_lines F tok ls tm = Ok tm' ->
  exists rows, traj_rows F tok ls rows /\ forall i, tm_get tm' i = tm_get (tm ++ rows) i.
Proof.
  revert tok tm. induction ls as [|l ls IH]; intros tok tm E; cbn [traj_lines] in E.
  - injection E as <-. exists []. split; [constructor|]. intros i. rewrite app_nil_r. reflexivity.
  - apply bind_Ok in E. destruct E as ([[id T] tok'] & E1 & E). destruct (IH _ _ E) as (rows & RR & GG).
    exists ((id, T) :: rows). split; [econstructor; eauto|]. intros i. rewrite GG. destruct (existsb (fun kv => (fst kv =? id)%N) tm) eqn:EX.
    + rewrite !get_app. cbn [tm_get]. destruct (existsb (fun kv => (fst kv =? i)%N) tm) eqn:EI; auto.
      destruct (N.eqb_spec id i) as [->|]; auto. congruence.
    + rewrite <- app_assoc. reflexivity.
Qed.
Lemma rows_lines tok ls rows : traj_rows F tok ls rows -> forall tm, exists tm', traj_lines F tok ls tm = Ok tm'.
Proof.
  induction 1 as [|tok l ls id T tok' rows E R IH]; intros tm; cbn [traj_lines]; [eauto|]. rewrite E. cbn [bind]. apply IH.
Qed.

(** Writing the blocks *)
Definition put_block (get : N -> res (Mx S)) (cols : nat) (T : Mx S) (i : nat) : res (Mx S) :=
  do Ti <- get (N.of_nat i); require (4 * i + 4 <=? cols)%nat (Ok (msetblock T 0 (4 * i) Ti)).

Lemma blocks_ok get cols m : forall s T, mrows T = 3%nat -> mcols T = cols -> (4 * (s + m) <= cols)%nat ->
  (forall i, (s <= i < s + m)%nat -> exists Ti, get (N.of_nat i) = Ok Ti /\ mrows Ti = 3%nat /\ mcols Ti = 4%nat) ->
  exists T', foldM (put_block get cols) T (seq s m) = Ok T' /\ mrows T' = 3%nat /\ mcols T' = cols /\
    (forall i Ti, (s <= i < s + m)%nat -> get (N.of_nat i) = Ok Ti -> pose_block T' i Ti) /\
    (forall a j, (j < 4 * s)%nat -> T' a j = T a j).
Proof.
  induction m as [|m IH]; intros s T R3 C B HG.
  - exists T. cbn. repeat split; auto. intros; lia.
  - cbn [seq foldM]. destruct (HG s) as (Ts & Es & Rs & Cs); [lia|]. unfold put_block at 1. rewrite Es. cbn [bind].
    destruct (Nat.leb_spec (4 * s + 4) cols); [|lia]. cbn [require bind].
    destruct (IH (Datatypes.S s) (msetblock T 0 (4 * s) Ts)) as (T' & E & R' & C' & BL & OL); auto; [lia|intros i Hi; apply HG; lia|].
    exists T'. split; [exact E|]. split; [auto|]. split; [auto|]. split.
    + intros i Ti Hi Ei. destruct (Nat.eq_dec i s) as [->|]; [|apply BL; auto; lia].
      rewrite Es in Ei. injection Ei as <-. intros a b Ha Hb. rewrite OL by lia. unfold msetblock. cbn [Num.mat].
      rewrite Rs, Cs. cbn [Nat.leb]. destruct (Nat.ltb_spec a (0 + 3)); [|lia]. destruct (Nat.leb_spec (4 * s) (4 * s + b)); [|lia].
      destruct (Nat.ltb_spec (4 * s + b) (4 * s + 4)); [|lia]. cbn [andb]. f_equal; lia.
    + intros a j Hj. rewrite OL by lia. unfold msetblock. cbn [Num.mat]. destruct (Nat.leb_spec (4 * s) j); [lia|]. rewrite !andb_false_r. reflexivity.
Qed.
Lemma blocks_all get cols m : forall s T T', foldM (put_block get cols) T (seq s m) = Ok T' ->
  forall i, (s <= i < s + m)%nat -> exists Ti, get (N.of_nat i) = Ok Ti.
Proof.
  induction m as [|m IH]; intros s T T' E i Hi; [lia|]. cbn [seq foldM] in E. apply bind_Ok in E. destruct E as (T1 & E1 & E).
  destruct (Nat.eq_dec i s) as [->|]; [|eapply IH; [exact E|lia]]. unfold put_block in E1. apply bind_Ok in E1. destruct E1 as (Ti & Ei & _). eauto.
Qed.
Lemma blocks_abort get cols m : forall s T, (4 * (s + m) <= cols)%nat -> (forall i, get i = Abort \/ exists Ti, get i = Ok Ti) ->
  foldM (put_block get cols) T (seq s m) = Abort \/ exists T', foldM (put_block get cols) T (seq s m) = Ok T'.
Proof.
  induction m as [|m IH]; intros s T B HG; [right; eexists; reflexivity|]. cbn [seq foldM]. unfold put_block at 1 3.
  destruct (HG (N.of_nat s)) as [->|[Ti ->]]; [left; reflexivity|]. cbn [bind]. destruct (Nat.leb_spec (4 * s + 4) cols); [|lia]. cbn [require bind].
  apply IH; auto. lia.
Qed.

Lemma ids_nodup n : NoDup (ids_upto n).
Proof. unfold ids_upto. apply FinFun.Injective_map_NoDup; [intros x y E; apply Nat2N.inj; auto|apply seq_NoDup]. Qed.

Definition traj_body (rows : list string) : res (Mx S) :=
  do tm <- traj_lines F "" rows [];
  let n := u32 (N.of_nat (List.length rows)) in
  let cols := N.to_nat (u32 (4 * n)) in
  foldM (put_block (tm_get tm) cols) (mzero 3 cols) (seq 0 (N.to_nat n)).
Lemma load_body fs filename content : fs (dir ++ filename) = Some content ->
  loadTrajectory F dir fs filename = do T <- traj_body (tl (lines content)); Ok (Some T).
Proof. intros E. unfold loadTrajectory, traj_body. rewrite E. destruct (traj_lines F "" (tl (lines content)) []); reflexivity. Qed.

Lemma few_n ls : few ls -> N.to_nat (u32 (N.of_nat (List.length ls))) = List.length ls /\
  N.to_nat (u32 (4 * u32 (N.of_nat (List.length ls)))) = (4 * List.length ls)%nat.
Proof. unfold few, u32, two32. intros Hf. rewrite !N.mod_small by lia. lia. Qed.

Lemma body_ok ls rows : few ls -> traj_rows F "" ls rows -> Permutation (map fst rows) (ids_upto (List.length ls)) ->
  exists T, traj_body ls = Ok T /\ mrows T = 3%nat /\ mcols T = (4 * List.length ls)%nat /\
    forall i P, In (N.of_nat i, P) rows -> pose_block T i P.
Proof.
  intros Hf RR PM. destruct (rows_lines _ _ _ RR []) as (tm & E). destruct (lines_rows _ _ _ _ E) as (rows' & RR' & GG).
  assert (rows' = rows). { clear -RR RR'. revert rows' RR'. induction RR; intros rows' RR'; inversion RR'; subst; auto. 
    match goal with A : traj_line F _ _ = _, B : traj_line F _ _ = _ |- _ => rewrite A in B; injection B as <- <- <- end. f_equal. auto. }
  subst rows'. cbn [app] in GG.
  unfold traj_body. rewrite E. cbn [bind]. destruct (few_n ls Hf) as [En Ec]. rewrite En, Ec.
  assert (ND : NoDup (map fst rows)) by (eapply Permutation_NoDup; [symmetry; exact PM|apply ids_nodup]).
  pose proof (rows_shape _ _ _ RR) as SH. rewrite Forall_forall in SH.
  destruct (blocks_ok (tm_get tm) (4 * List.length ls) (List.length ls) 0 (mzero 3 (4 * List.length ls))) as (T & ET & A & B & C & _); auto.
  { intros i Hi. assert (I : In (N.of_nat i) (map fst rows)).
    { eapply Permutation_in; [symmetry; exact PM|]. apply in_map. apply in_seq. lia. }
    apply in_exists, get_in in I. destruct I as (Ti & G & I). exists Ti. rewrite GG. split; auto. apply (SH _ I). }
  exists T. split; [exact ET|]. split; auto. split; auto. intros i P I. apply C.
  - assert (J : In (N.of_nat i) (ids_upto (List.length ls))). { eapply Permutation_in; [exact PM|]. apply in_map_iff. exists (N.of_nat i, P). auto. }
    unfold ids_upto in J. apply in_map_iff in J. destruct J as (j & Ej & Hj). apply in_seq in Hj. apply Nat2N.inj in Ej. lia.
  - rewrite GG. apply get_unique; auto.
Qed.

Lemma body_perm ls T : few ls -> traj_body ls = Ok T ->
  exists rows, traj_rows F "" ls rows /\ Permutation (map fst rows) (ids_upto (List.length ls)).
Proof.
  intros Hf E. unfold traj_body in E. apply bind_Ok in E. destruct E as (tm & E1 & E). destruct (lines_rows _ _ _ _ E1) as (rows & RR & GG). cbn [app] in GG.
  destruct (few_n ls Hf) as [En Ec]. rewrite En, Ec in E. exists rows. split; auto. symmetry.
  apply NoDup_Permutation_bis; [apply ids_nodup| |].
  - unfold ids_upto. rewrite !map_length, seq_length, (rows_length _ _ _ RR). lia.
  - intros i I. unfold ids_upto in I. apply in_map_iff in I. destruct I as (j & <- & Hj). apply in_seq in Hj.
    destruct (blocks_all _ _ _ _ _ _ E j ltac:(lia)) as (Ti & EG). rewrite GG in EG. apply in_exists.
    destruct (existsb (fun kv => (fst kv =? N.of_nat j)%N) rows) eqn:EX; auto. rewrite (get_notin _ _ EX) in EG. discriminate.
Qed.

Theorem load_accepts : forall fs filename content, fs (dir ++ filename) = Some content -> few (tl (lines content)) ->
  forall T, loadTrajectory F dir fs filename = Ok (Some T) ->
  exists rows, traj_rows F "" (tl (lines content)) rows /\ Permutation (map fst rows) (ids_upto (List.length rows)) /\
    mrows T = 3%nat /\ mcols T = (4 * List.length rows)%nat /\ forall i P, In (N.of_nat i, P) rows -> pose_block T i P.
Proof.
  intros fs filename content EC Hf T E. rewrite (load_body _ _ _ EC) in E. apply bind_Ok in E. destruct E as (T' & E & ET). injection ET as <-.
  destruct (body_perm _ _ Hf E) as (rows & RR & PM). destruct (body_ok _ _ Hf RR PM) as (T2 & E2 & A & B & C). rewrite E in E2. injection E2 as <-.
  exists rows. rewrite (rows_length _ _ _ RR). auto.
Qed.
Theorem load_rejects : forall fs filename content rows, fs (dir ++ filename) = Some content -> few (tl (lines content)) ->
  traj_rows F "" (tl (lines content)) rows ->
  (Permutation (map fst rows) (ids_upto (List.length rows)) -> exists T, loadTrajectory F dir fs filename = Ok (Some T)) /\
  (~ Permutation (map fst rows) (ids_upto (List.length rows)) -> loadTrajectory F dir fs filename = Abort).
Proof.
  intros fs filename content rows EC Hf RR. rewrite (load_body _ _ _ EC), (rows_length _ _ _ RR). split; intros PM.
  - destruct (body_ok _ _ Hf RR PM) as (T & E & _). exists T. rewrite E. reflexivity.
  - destruct (rows_lines _ _ _ RR []) as (tm & E). destruct (few_n _ Hf) as [En Ec].
    assert (D : traj_body (tl (lines content)) = Abort \/ exists T, traj_body (tl (lines content)) = Ok T).
    { unfold traj_body. rewrite E. cbn [bind]. rewrite En, Ec. apply blocks_abort; [lia|]. intros i.
      destruct (existsb (fun kv => (fst kv =? i)%N) tm) eqn:EX; [right|left; apply get_notin; auto]. destruct (get_in _ _ EX) as (Ti & A & _). eauto. }
    destruct D as [->|[T ET]]; [reflexivity|]. destruct (body_perm _ _ Hf ET) as (rows' & RR' & PM').
    exfalso. apply PM. assert (rows' = rows). { clear -RR RR'. revert rows' RR'. induction RR; intros rows' RR'; inversion RR'; subst; auto. 
    match goal with A : traj_line F _ _ = _, B : traj_line F _ _ = _ |- _ => rewrite A in B; injection B as <- <- <- end. f_equal. auto. }
    subst rows'. exact PM'.
Qed.
(** In particular a repeated id is never accepted. *)
Theorem load_repeated : forall fs filename content rows, fs (dir ++ filename) = Some content -> few (tl (lines content)) ->
  traj_rows F "" (tl (lines content)) rows -> ~ NoDup (map fst rows) -> loadTrajectory F dir fs filename = Abort.
Proof.
  intros fs filename content rows EC Hf RR ND. apply (load_rejects _ _ _ _ EC Hf RR). intros PM. apply ND.
  eapply Permutation_NoDup; [symmetry; exact PM|apply ids_nodup].
Qed.

(** ** Round trip *)
Variable rnd : S -> S.

Definition reread_pose (T : Mx S) (i : nat) : Mx S :=
  msetblock (msetblock (mzero 3 4) 0 0 (reread_rot rnd (mblock T 0 (i * 4) 3 3))) 0 3
    (mlit 3 1 [[rnd (T 0%nat (i * 4 + 3)%nat)]; [rnd (T 1%nat (i * 4 + 3)%nat)]; [rnd (T 2%nat (i * 4 + 3)%nat)]]).
Lemma row_line T i tok : small_id (N.of_nat i) -> Forall (fmt_at F rnd) (pose_nums T i) ->
  has nl (traj_row F T i) = false /\ exists tok', traj_line F tok (traj_row F T i) = Ok (N.of_nat i, reread_pose T i, tok').
Proof.
  intros Hi HF. unfold pose_nums in HF. cbn zeta in HF. repeat match goal with Hf : Forall _ (_ :: _) |- _ => inversion_clear Hf end.
  unfold traj_row. cbv zeta. assert (K : forall a, mblock T 0 (i * 4 + 3) 3 1 a 0%nat = T a (i * 4 + 3)%nat) by (intros a; cbn [mblock Num.mat]; f_equal; lia). rewrite !K. split.
  - apply has_comma_plain. repeat constructor; first [apply show_plain|match goal with Hf : fmt_at F rnd ?x |- has _ (f_show F ?x) = false => apply Hf end].
  - unfold traj_line. match goal with |- context [field_int (Some (comma ?l), tok)] => change (Some (comma l)) with (rest_of l) end.
    rewrite f_int by assumption. cbn [bind]. do 7 (rewrite (f_dbl F rnd) by assumption; cbn [bind]). cbn [snd]. rewrite u32_show by assumption.
    eexists. reflexivity.
Qed.
Lemma rows_seq T m : forall s tok, small_id (N.of_nat (s + m)) -> (forall i, (s <= i < s + m)%nat -> Forall (fmt_at F rnd) (pose_nums T i)) ->
  Forall (fun l => has nl l = false) (map (traj_row F T) (seq s m)) /\
  traj_rows F tok (map (traj_row F T) (seq s m)) (map (fun i => (N.of_nat i, reread_pose T i)) (seq s m)).
Proof.
  induction m as [|m IH]; intros s tok Hs HF; cbn [seq map]; [split; constructor|].
  destruct (row_line T s tok) as (A & tok' & B); [unfold small_id in *; lia|apply HF; lia|].
  destruct (IH (Datatypes.S s) tok') as (C & D); [unfold small_id in *; lia|intros; apply HF; lia|]. split; [constructor; auto|econstructor; eauto].
Qed.

Theorem traj_roundtrip : forall fs n T filename, writable (dir ++ filename) = true -> (n < 1073741824)%N ->
  mrows T = 3%nat -> mcols T = (4 * N.to_nat n)%nat -> (forall i, (i < N.to_nat n)%nat -> Forall (fmt_at F rnd) (pose_nums T i)) ->
  exists fs', logTrajectory F dir writable fs 3 n T filename = Ok fs' /\ (forall m, m <> dir ++ filename -> fs' m = fs m) /\
    exists T', loadTrajectory F dir fs' filename = Ok (Some T') /\ mrows T' = 3%nat /\ mcols T' = (4 * N.to_nat n)%nat /\
      forall i, (i < N.to_nat n)%nat ->
        (forall a b, (a < 3)%nat -> (b < 3)%nat -> T' a (4 * i + b)%nat = reread_rot rnd (mblock T 0 (4 * i) 3 3) a b) /\
        (forall a, (a < 3)%nat -> T' a (4 * i + 3)%nat = rnd (T a (4 * i + 3)%nat)).
Proof.
  intros fs n T filename W Hn R3 C HF. unfold logTrajectory. cbn [Nat.eqb]. rewrite R3, C. cbn [Nat.eqb check].
  assert (E1 : (N.of_nat (4 * N.to_nat n) =? u32 (N.of_nat (3 + 1) * n))%N = true).
  { apply N.eqb_eq. unfold u32, two32. rewrite N.mod_small by lia. lia. }
  rewrite E1. cbn [check]. rewrite W. cbn [negb require orb]. destruct (Nat.leb_spec ((3 + 1) * N.to_nat n) (4 * N.to_nat n)); [|lia]. cbn [require].
  eexists. split; [reflexivity|]. split; [intros m Hm; apply put_other; auto|].
  set (fs' := put fs (dir ++ filename) _).
  destruct (rows_seq T (N.to_nat n) 0 "") as (A & B); [unfold small_id; lia|intros; apply HF; lia|].
  assert (EL : tl (lines (text (traj_header :: map (traj_row F T) (seq 0 (N.to_nat n))))) = map (traj_row F T) (seq 0 (N.to_nat n))).
  { rewrite lines_text; [reflexivity|]. constructor; auto. }
  assert (Hf : few (map (traj_row F T) (seq 0 (N.to_nat n)))). { unfold few. rewrite map_length, seq_length. lia. }
  rewrite (load_body fs' filename _ (put_same _ _ _)), EL.
  destruct (body_ok _ _ Hf B) as (T' & E & R' & C' & P').
  { rewrite map_map. cbn [fst]. rewrite map_length, seq_length. apply Permutation_refl. }
  rewrite map_length, seq_length in C'. exists T'. rewrite E. split; [reflexivity|]. split; auto. split; auto.
  intros i Hi. assert (PB := P' i (reread_pose T i) ltac:(apply in_map_iff; exists i; split; [reflexivity|apply in_seq; lia])).
  unfold pose_block in PB. split.
  - intros a b Ha Hb. rewrite PB by lia. unfold reread_pose, msetblock. cbn [Num.mat mrows mcols mlit]. rewrite (Nat.mul_comm i 4).
    destruct (Nat.leb_spec 3 b); [lia|]. rewrite andb_false_r. cbn [andb].
    destruct (Nat.ltb_spec a (0 + mrows (reread_rot rnd (mblock T 0 (4 * i) 3 3)))) as [|L1]; [|cbn in L1; lia].
    destruct (Nat.ltb_spec b (0 + mcols (reread_rot rnd (mblock T 0 (4 * i) 3 3)))) as [|L1]; [|cbn in L1; lia].
    cbn [Nat.leb andb]. rewrite !Nat.sub_0_r. reflexivity.
  - intros a Ha. rewrite PB by lia. unfold reread_pose, msetblock. cbn [Num.mat mrows mcols mlit]. rewrite (Nat.mul_comm i 4).
    destruct (Nat.ltb_spec a (0 + 3)); [|lia]. cbn [Nat.leb Nat.ltb andb Nat.sub].
    destruct a as [|[|[|a]]]; [reflexivity..|lia].
Qed.

Theorem traj_2d : forall fs n T filename, logTrajectory F dir writable fs 2 n T filename = Ok fs.
Proof. reflexivity. Qed.
End P.

(** ** Exact formats over the reals *)
Local Open Scope R_scope.
Theorem meas_exact (F : Fmt R) dir writable : forall fs ms filename, ms <> [] -> writable (dir ++ filename) = true ->
  Forall meas3 ms -> Forall small_ids ms -> Forall (fun m => rotation 3 (mR m)) ms ->
  Forall (fun m => Forall (fmt_at F (fun x => x)) (meas_nums m)) ms ->
  exists fs' ms', logMeasurements F dir writable fs ms filename = Ok fs' /\ loadMeasurements F fs' (dir ++ filename) true = Ok ms' /\
    Forall2 (fun m m' => mr1 m' = mr1 m /\ mr2 m' = mr2 m /\ mp1 m' = mp1 m /\ mp2 m' = mp2 m /\ mkappa m' = mkappa m /\ mtau m' = mtau m /\
      mfixed m' = mfixed m /\ mweight m' = mweight m /\ mx_eq (mR m') (mR m) /\ mx_eq (mt m') (mt m)) ms ms'.
Proof.
  intros fs ms filename NE W M3 SI RO HF. destruct (meas_roundtrip F _ dir writable fs ms filename true NE W M3 SI HF) as (fs' & E & _ & ms' & E' & R2).
  exists fs', ms'. split; auto. split; auto. clear -R2 M3 RO. induction R2 as [|m m' ms ms' R2 _ IH]; constructor.
  - inversion_clear M3 as [|? ? (_ & _ & T3 & T1) _]. inversion_clear RO as [|? ? RO' _]. destruct R2 as (A1 & A2 & A3 & A4 & A5 & A6 & A7 & A8 & A9 & A10 & A11 & A12).
    repeat (split; [assumption|]). split; [rewrite A9; apply rot_quat; auto|].
    split; [congruence|]. split; [congruence|]. intros i j Hi Hj. rewrite A10 in Hi. rewrite A11 in Hj. replace j with 0%nat by lia. auto.
  - inversion_clear M3. inversion_clear RO. auto.
Qed.
Theorem traj_exact (F : Fmt R) dir writable : forall fs n (T : Mx R) filename, writable (dir ++ filename) = true ->
  (n < 1073741824)%N -> mrows T = 3%nat -> mcols T = (4 * N.to_nat n)%nat -> (forall i, (i < N.to_nat n)%nat -> rotation 3 (mblock T 0 (4 * i) 3 3)) ->
  (forall i, (i < N.to_nat n)%nat -> Forall (fmt_at F (fun x => x)) (pose_nums T i)) ->
  exists fs' T', logTrajectory F dir writable fs 3 n T filename = Ok fs' /\ loadTrajectory F dir fs' filename = Ok (Some T') /\ mx_eq T' T.
Proof.
  intros fs n T filename W Hn R3 C RO HF. destruct (traj_roundtrip F dir writable _ fs n T filename W Hn R3 C HF) as (fs' & E & _ & T' & E' & R' & C' & P).
  exists fs', T'. split; auto. split; auto. split; [congruence|]. split; [congruence|]. intros a j Ha Hj. rewrite R' in Ha. rewrite C' in Hj.
  pose proof (Nat.div_mod j 4 ltac:(lia)) as DM. pose proof (Nat.mod_upper_bound j 4 ltac:(lia)) as MB.
  assert (Hi : (j / 4 < N.to_nat n)%nat) by (apply Nat.div_lt_upper_bound; lia). destruct (P _ Hi) as [P1 P2].
  destruct (Nat.eq_dec (j mod 4) 3) as [E3|N3].
  - rewrite E3 in DM. rewrite DM. auto.
  - rewrite DM. rewrite P1 by lia. destruct (rot_quat _ (RO _ Hi)) as (_ & _ & Q). rewrite Q; [reflexivity|exact Ha|]. change ((j mod 4 < 3)%nat). lia.
Qed.
