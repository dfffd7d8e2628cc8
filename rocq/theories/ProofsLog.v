(** Proofs for ModelLog.v: the calls, for any arithmetic. *)
From Coq Require Import List NArith ZArith Bool Arith Lia String.
From Verif Require Import Base SMap Num ModelTypes ModelPoseGraph ModelProblem ModelRobust ModelPoses ModelSolver ModelAgent ModelIO ModelLog
  SpecPoseGraph SpecAgent SpecIO SpecLog ProofsPoseGraph ProofsPoses ProofsIO ProofsAgent ProofsAgent2 ProofsAgent3 ProofsFrames2.
Import ListNotations.
Local Open Scope string_scope.
Local Open Scope res_scope.

Section P.
Context {S : Type} `{HS : Num S}.
Context (F : Fmt S) (full : S -> string) (dir : string) (writable : string -> bool).
Implicit Types (a : Agent S) (T X : PoseArr S) (x : Ext S) (fs : FS).

(** *** The logger *)
Lemma logMeas_frame fs ms f fs' n : logMeasurements F dir writable fs ms f = Ok fs' ->
  fs' n = fs n \/ n = dir ++ f /\ writable n = true.
Proof.
  unfold logMeasurements. destruct ms as [|m ms]; [intros E; okinv E; auto|].
  destruct (writable (dir ++ f)) eqn:W; cbn [negb]; [|intros E; okinv E; auto].
  destruct (string_dec n (dir ++ f)) as [->|Nn]; [auto|left].
  destruct (mrows (mR m) =? 2)%nat; [okinv H; apply put_other; auto|].
  apply bind_Ok in H. destruct H as (rows & _ & E). okinv E. apply put_other; auto.
Qed.
Lemma logTraj_frame fs d k (T : Mx S) f fs' n : logTrajectory F dir writable fs d k T f = Ok fs' ->
  fs' n = fs n \/ n = dir ++ f /\ writable n = true /\ d <> 2%nat.
Proof.
  unfold logTrajectory. destruct (Nat.eqb_spec d 2) as [->|Nd]; [intros E; okinv E; auto|].
  intros E. apply check_Ok in E; destruct E as [_ E]. apply check_Ok in E; destruct E as [_ E].
  destruct (writable (dir ++ f)) eqn:W; cbn [negb] in E; [|okinv E; auto].
  apply require_Ok in E. destruct E as [_ E]. apply require_Ok in E. destruct E as [_ E]. okinv E.
  destruct (string_dec n (dir ++ f)) as [->|Nn]; [auto|left]. apply put_other; auto.
Qed.
Lemma logMeas_total fs d ms f : (d = 2 \/ d = 3)%nat -> Forall (shape_ok d) ms -> exists fs', logMeasurements F dir writable fs ms f = Ok fs'.
Proof.
  intros Hd HF. unfold logMeasurements. destruct ms as [|m ms]; [eauto|]. destruct (negb (writable (dir ++ f))); [eauto|].
  assert (Hm := Forall_inv HF). destruct Hm as (A & _). rewrite A. destruct Hd as [-> | ->]; cbn [Nat.eqb]; [eauto|].
  assert (G : forall l, Forall (shape_ok 3) l -> exists rows, mapM (meas_row F) l = Ok rows).
  { induction 1 as [|m' l (B1 & B2 & B3 & B4) _ (rows & IH)]; cbn; [eauto|]. unfold meas_row at 1. rewrite B1, B2, B3, ?B4. cbn. rewrite IH. cbn. eauto. }
  destruct (G _ HF) as (rows & ->). cbn. eauto.
Qed.
Lemma logTraj_total fs d k T f : (d = 2 \/ d = 3)%nat -> arr d d k T -> (N.of_nat k < 1073741824)%N ->
  exists fs', logTrajectory F dir writable fs d (N.of_nat k) (pa_X T) f = Ok fs'.
Proof.
  intros Hd (_ & _ & _ & A & B) Hk. unfold logTrajectory. destruct Hd as [-> | ->]; cbn [Nat.eqb]; [eauto|]. rewrite A, B. cbn [Nat.eqb check].
  replace (N.of_nat ((3 + 1) * k) =? u32 (N.of_nat (3 + 1) * N.of_nat k))%N with true.
  2:{ symmetry. apply N.eqb_eq. unfold u32, two32. rewrite N.mod_small by lia. lia. }
  cbn [check]. destruct (negb _); [eauto|]. cbn [orb require]. rewrite Nat2N.id. rewrite (proj2 (Nat.leb_le _ _)) by lia. cbn [require]. eauto.
Qed.

(** *** The exported trajectory *)
Lemma getTraj_arr x a T : ag_getTrajectoryInGlobalFrame x a = Ok (Some T) -> arr (p_d (a_params a)) (p_d (a_params a)) (num_poses a) T.
Proof.
  unfold ag_getTrajectoryInGlobalFrame. destruct (a_anchor a) as [Xa|]; [|discriminate]. intros E. apply check_Ok in E. destruct E as [_ E].
  destruct (negb (is_init a)); [discriminate|]. apply bind_Ok in E. destruct E as (T1 & E1 & E). cbv zeta in E. apply require_Ok in E. destruct E as [_ E].
  apply bind_Ok in E. destruct E as (T2 & E2 & E). apply bind_Ok in E. destruct E as (T3 & E3 & E). okinv E.
  apply pa_new_arr in E1. destruct (pa_setData_arr _ _ _ _ _ _ E1 E2) as [A2 _].
  eapply foldM_P; [exact A2| |exact E3]. cbn. intros T4 i T5 H4 E5.
  apply bind_Ok in E5. destruct E5 as (Ri & _ & E5). apply bind_Ok in E5. destruct E5 as (T6 & E6 & E5). apply bind_Ok in E5. destruct E5 as (ti & _ & E5).
  apply require_Ok in E5. destruct E5 as [_ E5]. eapply pa_set_trans_arr; [|exact E5]. eapply pa_set_rot_arr; eauto.
Qed.
Lemma getTraj_none x a : a_state a <> INITIALIZED \/ a_anchor a = None -> forall o, ag_getTrajectoryInGlobalFrame x a = Ok o -> o = None.
Proof.
  intros Hc o. unfold ag_getTrajectoryInGlobalFrame. destruct (a_anchor a) as [Xa|]; [|intros E; okinv E; auto].
  intros E. apply check_Ok in E. destruct E as [_ E]. destruct Hc as [Hs|]; [|discriminate]. apply is_init_neq in Hs. rewrite Hs in E. cbn in E. okinv E. auto.
Qed.
Lemma getTraj_end x a : ag_getTrajectoryInGlobalFrame x (ag_endOptimizationLoop a) = ag_getTrajectoryInGlobalFrame x a.
Proof. rewrite endLoop_form. reflexivity. Qed.

(** *** Entering the global frame *)
Definition placed_by a TW : Prop := exists YL T T', a_YLift a = Some YL /\ a_TLocal a = Some T /\ transform_all TW (num_poses a) T = Ok T' /\
  can_mul YL (pa_X T') = true /\ pa_X (a_X a) = mmul YL (pa_X T').
Lemma initGlobal_placed a TW a' : ag_initializeInGlobalFrame a TW = Ok a' -> placed_by a' TW /\ a_params a' = a_params a /\ a_state a' = INITIALIZED.
Proof.
  intros E. destruct (initGlobal_X _ _ _ E) as (YL & T & T' & EY & ET & E1 & C & EX & _). pose proof (initGlobal_form _ _ _ E) as Q.
  decompose [and] Q. split; [|auto]. exists YL, T, T'. repeat split; try congruence; auto.
  - unfold num_poses. erewrite weq_n by eassumption. exact E1.
  - unfold pa_setData in EX. apply check_Ok in EX. destruct EX as [_ EX]. apply check_Ok in EX. destruct EX as [_ EX]. injection EX as EX. rewrite <- EX. reflexivity.
Qed.
Lemma placed_thread a b TW : placed_by a TW -> placed_by (sa_thread a b) TW.
Proof. exact (fun Q => Q). Qed.

Lemma enters_spec x a o a' : ag_step x a o = Ok a' ->
  exists e, enters x a o = Ok e /\
    match e with
    | Some TW => entered a o a' /\ placed_by a' TW /\ a_params a' = a_params a
    | None => ~ entered a o a'
    end.
Proof.
  intros E. destruct o; try (exists None; split; [reflexivity|exact (fun H => H)]); cbn [ag_step enters] in *.
  - unfold ag_initialize in E. destruct (state_eqb (a_state a) WAIT_FOR_DATA) eqn:Hs; cbn [negb andb] in *.
    2:{ okinv E. exists None. split; [reflexivity|]. cbn. tauto. }
    apply state_eqb_eq in Hs. rewrite endLoop_form in E. change (pg_n (a_pg (sa_thread a false))) with (pg_n (a_pg a)) in E.
    destruct (pg_n (a_pg a) =? 0)%N; cbn [negb andb] in *.
    { okinv E. exists None. split; [reflexivity|]. cbn. rewrite Hs. intros [_ ?]. discriminate. }
    apply bind_Ok in E. destruct E as ([a0 T0] & E0 & E).
    assert (Ea : a_params a0 = a_params a /\ a_id a0 = a_id a).
    { destruct (match T with Some _ => _ | None => _ end); [okinv E0; auto|]. apply bind_Ok in E0. destruct E0 as ([a1 T1] & E1 & E2).
      apply check_Ok in E2. destruct E2 as [_ E2]. okinv E2. destruct (local_traj_form _ _ _ _ _ E1) as [-> _]. auto. }
    destruct Ea as [Ep Ei]. apply bind_Ok in E. destruct E as (T1 & E1 & E). cbv zeta in E. apply bind_Ok in E. destruct E as (X & EX & E).
    cbn [a_id a_params sa_state sa_X sa_TLocal] in E. rewrite Ep, Ei in E. apply bind_Ok in E. destruct E as (a2 & E2 & E).
    assert (Ef : exists b, a' = sa_thread a2 b).
    { destruct (p_async (a_params a2)); [destruct (startLoop_form _ _ E) as [-> _]; eauto|]. okinv E. exists (a_thread a'). destruct a'; reflexivity. }
    destruct Ef as (b & ->). clear E. destruct ((a_id a =? 0)%N || negb (p_multi (a_params a))).
    + apply bind_Ok in E2. destruct E2 as (J & EJ & E2). rewrite EJ. cbn [bind]. exists (Some J). split; [reflexivity|].
      destruct (initGlobal_placed _ _ _ E2) as (P1 & P2 & P3). split; [cbn; split; [rewrite Hs; discriminate|exact P3]|].
      split; [exact P1|]. transitivity (a_params a0); [exact P2|exact Ep].
    + okinv E2. exists None. split; [reflexivity|]. cbn. intros [_ ?]. discriminate.
  - destruct (initGlobal_placed _ _ _ E) as (P1 & P2 & P3). exists (Some T). split; [reflexivity|]. cbn. auto.
  - unfold ag_updateNeighborPoses in E. apply check_Ok in E. destruct E as [_ E]. destruct (nbr_ready a k); cbn [negb andb] in *.
    2:{ okinv E. exists None. split; [reflexivity|]. cbn. tauto. }
    destruct (state_eqb (a_state a) WAIT_FOR_INITIALIZATION) eqn:Hs.
    + apply state_eqb_eq in Hs. apply bind_Ok in E. destruct E as (a1 & E1 & E). apply bind_Ok in E1. destruct E1 as (o & Eo & E1).
      exists o. split; [exact Eo|]. destruct o as [TW|].
      * destruct (initGlobal_placed _ _ _ E1) as (P1 & P2 & P3). rewrite (proj2 (is_init_eq a1) P3) in E. cbn [negb] in E.
        apply bind_Ok in E. destruct E as (c & _ & E). okinv E. cbn. split; [split; [rewrite Hs; discriminate|exact P3]|]. split; [exact P1|exact P2].
      * okinv E1. assert (Hi : is_init a1 = false) by (apply is_init_neq; rewrite Hs; discriminate). rewrite Hi in E. okinv E.
        cbn. rewrite Hs. intros [_ ?]. discriminate.
    + cbn [bind] in E. exists None. split; [reflexivity|]. cbn. intros [H1 H2]. apply is_init_neq in H1. rewrite H1 in E. cbn in E. okinv E.
      apply is_init_neq in H1. auto.
Qed.

(** *** One call *)
Lemma log_reset_total x fs a d : AInv a -> p_d (a_params a) = d -> (d = 2 \/ d = 3)%nat -> (N.of_nat (num_poses a) < 1073741824)%N ->
  (p_log (a_params a) = true -> exists o, ag_getTrajectoryInGlobalFrame x a = Ok o) -> exists fs', log_reset F full dir writable x fs a = Ok fs'.
Proof.
  intros I Ed Hd Hn HT. unfold log_reset. destruct (p_log (a_params a)); cbn [negb]; [|eauto].
  destruct (logMeas_total fs d (measurements (a_pg a)) "measurements.csv" Hd) as (fs1 & ->).
  { apply Forall_forall. intros m Hm. pose proof (wf_dims _ (iv_pg _ I) _ Hm) as D. apply dims_ok_shape in D. rewrite (iv_d _ I), Ed in D. exact D. }
  cbn [bind]. destruct (HT eq_refl) as (o & Eo). rewrite Eo. cbn [bind]. destruct o as [T|]; [|cbn [bind]; eauto].
  apply getTraj_arr in Eo. rewrite Ed in Eo. unfold dimension. rewrite (iv_d _ I), Ed.
  destruct (logTraj_total fs1 d (num_poses a) T "trajectory_optimized.csv" Hd Eo Hn) as (fs2 & ->). cbn [bind]. eauto.
Qed.
Lemma log_enter_total fs a TW d : AInv a -> p_d (a_params a) = d -> (d = 2 \/ d = 3)%nat -> (N.of_nat (num_poses a) < 1073741824)%N ->
  placed_by a TW -> exists fs', log_enter F dir writable fs a TW = Ok fs'.
Proof.
  intros I Ed Hd Hn (YL & T & T' & _ & ET & E & _). unfold log_enter. destruct (p_log (a_params a)); cbn [negb]; [|eauto].
  rewrite ET. cbn [opt_value bind]. rewrite E. cbn [bind]. destruct (iv_T _ I _ ET) as [_ A]. apply (transform_all_arr _ _ _ _ _ _ _ A) in E.
  unfold dimension. rewrite (iv_d _ I), Ed in *. apply (logTraj_total fs d); auto.
Qed.
Lemma reset_traj x a a' : ag_reset x a = Ok a' -> p_log (a_params a) = true -> exists o, ag_getTrajectoryInGlobalFrame x (ag_endOptimizationLoop a) = Ok o.
Proof.
  unfold ag_reset. rewrite endLoop_form. cbv zeta. change (a_params (sa_thread a false)) with (a_params a). intros E Hl. rewrite Hl in E.
  apply bind_Ok in E. destruct E as (u & E & _). apply bind_Ok in E. destruct E as (o & E & _). eauto.
Qed.
Lemma inv_end a : AInv a -> AInv (ag_endOptimizationLoop a).
Proof. intros I. rewrite endLoop_form. refine (inv_misc _ _ I _ _ _ _ _ _ _ _ _ _ _ _ _ _ _ _); reflexivity. Qed.

Lemma lg_step_agent x fs a o fs' a' : lg_step F full dir writable x (fs, a) o = Ok (fs', a') -> ag_step x a o = Ok a'.
Proof.
  unfold lg_step. intros E. apply bind_Ok in E. destruct E as (fs1 & _ & E). apply bind_Ok in E. destruct E as (a1 & E1 & E).
  apply bind_Ok in E. destruct E as (e & _ & E). apply bind_Ok in E. destruct E as (fs2 & _ & E). congruence.
Qed.
Lemma lg_step_total x fs a o a' d : AInv a -> AInv a' -> ag_step x a o = Ok a' -> p_d (a_params a) = d -> p_d (a_params a') = d -> (d = 2 \/ d = 3)%nat ->
  (N.of_nat (num_poses a) < 1073741824)%N -> (N.of_nat (num_poses a') < 1073741824)%N ->
  exists fs', lg_step F full dir writable x (fs, a) o = Ok (fs', a').
Proof.
  intros I I' E Ed Ed' Hd Hn Hn'. unfold lg_step.
  assert (H1 : exists fs1, match o with AReset => log_reset F full dir writable x fs (ag_endOptimizationLoop a) | _ => Ok fs end = Ok fs1).
  { destruct o; eauto. cbn [ag_step] in E. apply (log_reset_total x fs _ d); auto; [apply inv_end; auto|rewrite endLoop_form; exact Ed|rewrite endLoop_form; exact Hn|].
    rewrite endLoop_form at 1. cbn. intros Hl. eapply reset_traj; eauto. }
  destruct H1 as (fs1 & ->). cbn [bind]. rewrite E. cbn [bind]. destruct (enters_spec x a o a' E) as (e & -> & He).
  cbn [bind]. destruct e as [TW|]; [|cbn [bind]; eauto]. destruct He as (_ & P & _).
  destruct (log_enter_total fs1 a' TW d I' Ed' Hd Hn' P) as (fs2 & ->). cbn [bind]. eauto.
Qed.

Lemma step_params x a o a' : AInv a -> aop_ok o -> ag_step x a o = Ok a' -> a_params a' = a_params a.
Proof. intros I Ho E. destruct (step_effects _ _ _ _ I Ho E); auto. Qed.

Theorem transparent x os : forall fs a, AInv a -> Forall aop_ok os -> (p_d (a_params a) = 2 \/ p_d (a_params a) = 3)%nat ->
  (N.of_nat (num_poses a) < 1073741824)%N -> Forall (fun e => (N.of_nat (num_poses (e_post e)) < 1073741824)%N) (events x a os) ->
  forall a', ag_run x a os = Ok a' <-> exists fs', lg_run F full dir writable x (fs, a) os = Ok (fs', a').
Proof.
  induction os as [|o os IH]; intros fs a I HO Hd Hn HE a'; unfold ag_run, lg_run in *; cbn [foldM] in *.
  { split; [intros E; okinv E; eauto|]. intros (fs' & E). congruence. }
  inversion_clear HO as [|? ? Ho HO']. cbn [events] in HE. split.
  - intros E. apply bind_Ok in E. destruct E as (a1 & E1 & E). rewrite E1 in HE. inversion_clear HE as [|? ? Hn1 HE']. cbn [e_post] in Hn1.
    pose proof (step_inv _ _ _ _ I Ho E1) as I1. pose proof (step_params _ _ _ _ I Ho E1) as Ep.
    destruct (lg_step_total x fs a o a1 _ I I1 E1 eq_refl ltac:(rewrite Ep; reflexivity) Hd Hn Hn1) as (fs1 & ->). cbn [bind].
    apply (IH fs1 a1); auto. rewrite Ep. exact Hd.
  - intros (fs' & E). apply bind_Ok in E. destruct E as ([fs1 a1] & E1 & E). apply lg_step_agent in E1. rewrite E1 in *. cbn [bind].
    inversion_clear HE as [|? ? Hn1 HE']. pose proof (step_inv _ _ _ _ I Ho E1) as I1. pose proof (step_params _ _ _ _ I Ho E1) as Ep.
    apply (IH fs1 a1); auto; [rewrite Ep; exact Hd|]. eauto.
Qed.

(** *** What is left alone *)
Lemma lg_step_frame x fs a o fs' a' n : lg_step F full dir writable x (fs, a) o = Ok (fs', a') ->
  fs' n = fs n \/ p_log (a_params a) = true /\ writable n = true /\
   (o = AReset /\ (n = dir ++ "measurements.csv" \/ n = dir ++ "X.txt" \/
                   n = dir ++ "trajectory_optimized.csv" /\ dimension a <> 2%nat /\ a_state a = INITIALIZED /\ a_anchor a <> None) \/
    entered a o a' /\ dimension a' <> 2%nat /\ n = dir ++ "trajectory_initial.csv").
Proof.
  unfold lg_step. intros E. apply bind_Ok in E. destruct E as (fs1 & E1 & E). apply bind_Ok in E. destruct E as (a1 & Ea & E).
  apply bind_Ok in E. destruct E as (e & Ee & E). apply bind_Ok in E. destruct E as (fs2 & E2 & E). injection E as <- <-.
  destruct (enters_spec x a o a1 Ea) as (e' & Ee' & He). rewrite Ee in Ee'. okinv Ee'.
  assert (D : fs2 n = fs1 n \/ p_log (a_params a) = true /\ writable n = true /\ entered a o a1 /\ dimension a1 <> 2%nat /\ n = dir ++ "trajectory_initial.csv").
  { destruct e' as [TW|]; [|okinv E2; auto]. destruct He as (H1 & _ & Hp). unfold log_enter in E2. rewrite Hp in E2.
    destruct (p_log (a_params a)); cbn [negb] in E2; [|okinv E2; auto].
    apply bind_Ok in E2. destruct E2 as (T & _ & E2). apply bind_Ok in E2. destruct E2 as (T' & _ & E2).
    destruct (logTraj_frame _ _ _ _ _ _ n E2) as [?|(? & ? & ?)]; auto 8. }
  destruct D as [->|D]; [|right; tauto].
  destruct o; try (okinv E1; auto; fail). unfold log_reset in E1. rewrite getTraj_end in E1. rewrite endLoop_form in E1. cbn in E1.
  destruct (p_log (a_params a)); cbn [negb] in E1; [|okinv E1; auto].
  apply bind_Ok in E1. destruct E1 as (f1 & F1 & E1). apply bind_Ok in E1. destruct E1 as (ot & Ft & E1). apply bind_Ok in E1. destruct E1 as (f2 & F2 & E1).
  okinv E1. unfold writeMatrixToFile.
  assert (D2 : f2 n = fs n \/ writable n = true /\ (n = dir ++ "measurements.csv" \/ n = dir ++ "trajectory_optimized.csv" /\ dimension a <> 2%nat /\ a_state a = INITIALIZED /\ a_anchor a <> None)).
  { destruct (logMeas_frame _ _ _ _ n F1) as [<-|[? ?]].
    2:{ right. split; auto. }
    destruct ot as [T|]; [|okinv F2; auto]. change (dimension (sa_thread a false)) with (dimension a) in F2.
    destruct (logTraj_frame _ _ _ _ _ _ n F2) as [?|(? & ? & ?)]; auto. right. split; auto. right. split; auto. split; auto.
    destruct (a_state a) eqn:Hs; [| |split; [reflexivity|]];
      try (pose proof (getTraj_none x a ltac:(left; rewrite Hs; discriminate) _ Ft); discriminate).
    intros Ha. pose proof (getTraj_none x a ltac:(right; exact Ha) _ Ft); discriminate. }
  destruct (writable (dir ++ "X.txt")) eqn:W; cbn [negb].
  - destruct (string_dec n (dir ++ "X.txt")) as [->|Nn].
    + right. auto 8.
    + rewrite put_other by auto. destruct D2 as [?|[? [?|?]]]; auto 10; right; split; auto; split; auto; left; tauto.
  - destruct D2 as [?|[? [?|?]]]; auto 10; right; split; auto; split; auto; left; tauto.
Qed.

Theorem frame_run x os : forall fs a fs' a' n, AInv a -> Forall aop_ok os -> lg_run F full dir writable x (fs, a) os = Ok (fs', a') ->
  fs' n = fs n \/ p_log (a_params a) = true /\ writable n = true /\ exists f, In f logs /\ n = dir ++ f.
Proof.
  induction os as [|o os IH]; intros fs a fs' a' n I HO E; unfold lg_run in *; cbn [foldM] in *; [left; congruence|]. inversion_clear HO as [|? ? Ho HO'].
  apply bind_Ok in E. destruct E as ([fs1 a1] & E1 & E). pose proof (lg_step_agent _ _ _ _ _ _ E1) as Ea. pose proof (step_params _ _ _ _ I Ho Ea) as Ep. pose proof (step_inv _ _ _ _ I Ho Ea) as I1.
  destruct (IH fs1 a1 fs' a' n I1 HO' E) as [->|H]; [|rewrite Ep in H; auto].
  destruct (lg_step_frame _ _ _ _ _ _ n E1) as [?|(H1 & H2 & H3)]; auto. right. split; auto. split; auto.
  destruct H3 as [(_ & [?|[?|[? _]]])|(_ & _ & ?)]; eexists; (split; [|eassumption]); cbn; auto 6.
Qed.

(** *** X.txt *)
Lemma lines_concat ls : Forall (fun l => has nl l = false) ls -> ls <> [] -> (forall l, In l ls -> l <> "") -> lines (String.concat NL ls) = ls.
Proof.
  induction ls as [|l ls IH]; [congruence|]. intros HF _ HN. inversion_clear HF. destruct ls as [|l2 ls].
  - cbn. assert (Q : forall l, has nl l = false -> l <> "" -> lines l = [l]).
    { clear. induction l as [|c l IH]; intros H N; [congruence|]. cbn in H. apply orb_false_iff in H. destruct H as [H1 H2]. cbn. rewrite H1.
      destruct l as [|c2 l]; [reflexivity|]. rewrite IH; auto. discriminate. }
    apply Q; auto. apply HN. left; reflexivity.
  - change (String.concat NL (l :: l2 :: ls)) with (l ++ NL ++ String.concat NL (l2 :: ls)). rewrite lines_line by auto. f_equal.
    apply IH; auto; [discriminate|]. intros; apply HN; right; auto.
Qed.
Lemma has_concat c sep ls : has c sep = false -> Forall (fun l => has c l = false) ls -> has c (String.concat sep ls) = false.
Proof.
  intros Hs HF. induction ls as [|l ls IH]; [reflexivity|]. inversion_clear HF. destruct ls as [|l2 ls]; [assumption|].
  change (String.concat sep (l :: l2 :: ls)) with (l ++ sep ++ String.concat sep (l2 :: ls)). rewrite !has_app, H, Hs, IH by auto. reflexivity.
Qed.
Lemma matrix_lines (M : Mx S) : (forall v, has nl (full v) = false /\ full v <> "") -> mrows M <> 0%nat -> mcols M <> 0%nat ->
  exists rows, lines (matrix_text full M) = map (String.concat ", ") rows /\ List.length rows = mrows M /\
    forall i l, nth_error rows i = Some l -> row_texts full M i l.
Proof.
  intros HF Hr Hc. exists (map (fun i => map (fun j => full (M i j)) (seq 0 (mcols M))) (seq 0 (mrows M))).
  unfold matrix_text. rewrite (proj2 (Nat.eqb_neq _ _)) by nia. rewrite map_map. split; [|split].
  - apply lines_concat.
    + apply Forall_forall. intros l Hl. apply in_map_iff in Hl. destruct Hl as (i & <- & _). apply has_concat; [reflexivity|].
      apply Forall_forall. intros l Hl. apply in_map_iff in Hl. destruct Hl as (j & <- & _). apply HF.
    + destruct (mrows M); [congruence|]. discriminate.
    + intros l Hl. apply in_map_iff in Hl. destruct Hl as (i & <- & _). destruct (mcols M) as [|c]; [congruence|]. cbn [seq map].
      destruct (HF (M i 0%nat)) as [_ N]. destruct (full (M i 0%nat)) as [|ch s] eqn:Ef; [congruence|]. destruct (map _ _); discriminate.
  - rewrite map_length, seq_length. reflexivity.
  - intros i l Hi. rewrite nth_error_map in Hi. destruct (nth_error (seq 0 (mrows M)) i) as [k|] eqn:Ek; [|discriminate].
    assert (L : (i < List.length (seq 0 (mrows M)))%nat) by (apply nth_error_Some; congruence). rewrite seq_length in L.
    apply nth_error_nth with (d := O) in Ek. rewrite seq_nth in Ek by auto. cbn in Ek. subst k. cbn in Hi. injection Hi as <-.
    unfold row_texts. rewrite map_length, seq_length. split; [reflexivity|]. intros j t Ht. rewrite nth_error_map in Ht.
    destruct (nth_error (seq 0 (mcols M)) j) as [k|] eqn:Ek; [|discriminate].
    assert (L2 : (j < List.length (seq 0 (mcols M)))%nat) by (apply nth_error_Some; congruence). rewrite seq_length in L2.
    apply nth_error_nth with (d := O) in Ek. rewrite seq_nth in Ek by auto. cbn in Ek. subst k. cbn in Ht. congruence.
Qed.
End P.
