(** Effect of every call on counters, tables and life cycle, and what follows
    for whole histories. *)
From Coq Require Import List NArith ZArith Bool Arith Lia.
From Verif Require Import Base SMap Num ModelTypes ModelPoseGraph ModelProblem ModelRobust ModelPoses ModelSolver ModelAgent
  SpecPoseGraph SpecPGHist SpecSolver SpecAgent ProofsPoseGraph ProofsPGHist ProofsPGMain ProofsPGData ProofsPoses ProofsAgent ProofsAgent2.
Import ListNotations.
Local Open Scope res_scope.

Section A.
Context {S : Type} `{HS : Num S}.
Implicit Types (a : Agent S) (g : PoseGraph S) (T X : PoseArr S) (x : Ext S) (e : event S).

(** Everything the history properties look at is unchanged. *)
Record quiet a a' : Prop := {
  q_id : a_id a' = a_id a; q_params : a_params a' = a_params a; q_inst : a_inst a' = a_inst a;
  q_iter : a_iter a' = a_iter a; q_lwu : a_lwu a' = a_lwu a; q_inner : a_inner a' = a_inner a;
  q_wuc : a_wuc a' = a_wuc a; q_trc : a_trc a' = a_trc a; q_team : a_team a' = a_team a;
  q_active : a_active a' = a_active a }.
Lemma quiet_refl a : quiet a a. Proof. constructor; auto. Qed.

Lemma setX_form a M a' : ag_setX a M = Ok a' -> quiet a a' /\ a_pg a' = a_pg a /\ a_state a' = INITIALIZED /\
  a_state a <> WAIT_FOR_DATA /\ a_ndict a' = a_ndict a /\ a_naux a' = a_naux a /\ a_XInit a' = a_XInit a /\ a_YLift a' = a_YLift a /\
  a_anchor a' = a_anchor a /\ a_TLocal a' = a_TLocal a /\ a_thread a' = a_thread a /\ a_rc a' = a_rc a.
Proof.
  intros E. unfold ag_setX in E. dres E. apply negb_true_iff, state_eqb_neq in C.
  match type of E with (if _ then ag_initializeAcceleration ?A else _) = _ => set (a1 := A) in * end.
  assert (F : exists gm al Y V XP, a' = sa_XPrev (sa_V (sa_Y (sa_alpha (sa_gamma a1 gm) al) Y) V) XP).
  { destruct (p_accel (a_params a1)); [apply initAccel_form; auto|]. injection E as <-. do 5 eexists. apply eta_acc. }
  destruct F as (gm & al & Y & V & XP & ->). cbn. sp; auto. constructor; reflexivity.
Qed.
Lemma setXInit_form a a' : ag_setXToInitialGuess a = Ok a' -> exists X, a_XInit a = Some X /\ a' = sa_X a X /\ a_state a <> WAIT_FOR_DATA.
Proof.
  unfold ag_setXToInitialGuess. intros E. dres E. apply negb_true_iff, state_eqb_neq in C.
  destruct (a_XInit a) as [X|]; [|discriminate]. injection E as <-. eauto.
Qed.
Lemma addA_form a m a' : ag_addMeasurement a m = Ok a' ->
  a_state a <> WAIT_FOR_DATA /\ a' = a \/
  a_state a = WAIT_FOR_DATA /\ exists g, addMeasurement (a_pg a) m = Ok g /\ a' = sa_pg a g.
Proof.
  unfold ag_addMeasurement. intros E. destruct (state_eqb (a_state a) WAIT_FOR_DATA) eqn:Hs; cbn in E.
  - apply state_eqb_eq in Hs. dres E. okinv E. right. eauto.
  - apply state_eqb_neq in Hs. injection E as <-. auto.
Qed.
Lemma setMeasA_form a od priv sh a' : ag_setMeasurements a od priv sh = Ok a' ->
  a_state a = WAIT_FOR_DATA /\ (od = [] /\ a' = a \/
  od <> [] /\ exists g0 g, newPoseGraph (a_id a) (p_r (a_params a)) (p_d (a_params a)) = Ok g0 /\
     setMeasurements g0 (od ++ priv ++ sh) = Ok g /\ a' = sa_pg a g).
Proof.
  unfold ag_setMeasurements. intros E. dres E. apply state_eqb_eq in C0. split; auto.
  destruct od as [|m od]; [injection E as <-; auto|]. dres E. okinv E. right. split; [discriminate|]. eauto.
Qed.

Lemma updNbr_form x a k dict a' : ag_updateNeighborPoses x a k dict = Ok a' -> AInv a ->
  k <> a_id a /\
  (nbr_ready a k = false /\ a' = a \/
   nbr_ready a k = true /\ exists a1, AInv a1 /\
    (a1 = a \/ a_state a = WAIT_FOR_INITIALIZATION /\ exists T, ag_twoStage x a k dict = Ok (Some T) /\ ag_initializeInGlobalFrame a T = Ok a1) /\
    (a_state a = WAIT_FOR_INITIALIZATION -> a1 = a -> ag_twoStage x a k dict = Ok None) /\
    (is_init a1 = false /\ a' = a1 \/
     is_init a1 = true /\ exists c, store_poses a1 k dict (a_ndict a1) = Ok c /\ a' = sa_ndict a1 c)).
Proof.
  intros E I. unfold ag_updateNeighborPoses in E. dres E. apply negb_true_iff, N.eqb_neq in C. split; auto.
  destruct (nbr_ready a k); cbn [negb] in E; [|injection E as <-; auto]. right. split; auto. dres E. exists y.
  assert (R : (y = a \/ a_state a = WAIT_FOR_INITIALIZATION /\ exists T, ag_twoStage x a k dict = Ok (Some T) /\ ag_initializeInGlobalFrame a T = Ok y) /\
    (a_state a = WAIT_FOR_INITIALIZATION -> y = a -> ag_twoStage x a k dict = Ok None)).
  { destruct (state_eqb (a_state a) WAIT_FOR_INITIALIZATION) eqn:Hs.
    - apply state_eqb_eq in Hs. dres E0. destruct y0 as [T|].
      + split; [right; eauto|]. intros _ ->. destruct (initGlobal_inv _ _ _ I E0). congruence.
      + injection E0 as <-. auto.
    - apply state_eqb_neq in Hs. injection E0 as <-. split; auto. intros; congruence. }
  destruct R as [R1 R2]. split.
  { destruct R1 as [->|(_ & T & _ & ET)]; auto. apply (initGlobal_inv _ _ _ I ET). }
  split; auto. split; auto. destruct (is_init y); cbn [negb] in E; [|injection E as <-; auto].
  dres E. okinv E. right. eauto.
Qed.
Lemma updAux_form a k dict a' : ag_updateAuxNeighborPoses a k dict = Ok a' ->
  k <> a_id a /\ p_accel (a_params a) = true /\
  (nbr_ready a k && is_init a = false /\ a' = a \/
   nbr_ready a k && is_init a = true /\ exists c, store_poses a k dict (a_naux a) = Ok c /\ a' = sa_naux a c).
Proof.
  intros E. unfold ag_updateAuxNeighborPoses in E. dres E. apply negb_true_iff, N.eqb_neq in C0. split; auto. split; auto.
  destruct (nbr_ready a k); cbn [negb andb] in *; [|injection E as <-; auto].
  destruct (is_init a); cbn [negb] in *; [|injection E as <-; auto]. right. split; auto. dres E. okinv E. eauto.
Qed.

(** *** Effects *)
Record effects e : Prop := {
  ef_id : a_id (e_post e) = a_id (e_pre e);
  ef_params : a_params (e_post e) = a_params (e_pre e);
  ef_inst : a_inst (e_post e) = if is_reset e then u32 (a_inst (e_pre e) + 1) else a_inst (e_pre e);
  ef_iter : a_iter (e_post e) = if is_reset e then 0%N else if is_iter e then u32 (a_iter (e_pre e) + 1) else a_iter (e_pre e);
  ef_lwu : a_lwu (e_post e) = if is_reset e then 0%N else if is_reweight e then a_iter (e_pre e) else a_lwu (e_pre e);
  ef_inner : a_inner (e_post e) = if is_reset e || is_reweight e then 0%Z
               else if is_iter e && robust (e_pre e) then (a_inner (e_pre e) + 1)%Z else a_inner (e_pre e);
  ef_wuc : a_wuc (e_post e) = if is_reset e then 0%Z else if is_reweight e then (a_wuc (e_pre e) + 1)%Z else a_wuc (e_pre e);
  ef_team : a_team (e_post e) = if is_reset e || is_reweight e then []
              else match e_op e with AStatus s => mset N.ltb (st_id s) s (a_team (e_pre e)) | _ => a_team (e_pre e) end;
  ef_active : a_active (e_post e) = if is_reset e then repeat false (N.to_nat (p_numRobots (a_params (e_pre e))))
              else match e_op e with
                   | ASetActive k b => if (p_numRobots (a_params (e_pre e)) <=? k)%N then a_active (e_pre e)
                                       else list_update (a_active (e_pre e)) (N.to_nat k) (fun _ => b)
                   | _ => a_active (e_pre e) end }.

Lemma effects_quiet e : is_reset e = false -> is_iter e = false -> is_reweight e = false ->
  match e_op e with AStatus _ | ASetActive _ _ => False | _ => True end -> quiet (e_pre e) (e_post e) -> effects e.
Proof.
  intros E1 E2 E3 E4 [].
  constructor; rewrite ?E1, ?E2, ?E3; cbn; auto; destruct (e_op e); auto; contradiction.
Qed.

Lemma step_effects x a o a' : AInv a -> aop_ok o -> ag_step x a o = Ok a' -> effects (mkEv a o a').
Proof.
  intros I Ho E. destruct o; cbn [ag_step aop_ok] in *;
    try (apply effects_quiet; [reflexivity|reflexivity|reflexivity|exact Logic.I|cbn]).
  - apply (setX_form _ _ _ E).
  - destruct (setXInit_form _ _ E) as (X1 & _ & -> & _). constructor; reflexivity.
  - destruct (addA_form _ _ _ E) as [[_ ->]|(_ & g & _ & ->)]; constructor; reflexivity.
  - destruct (setMeasA_form _ _ _ _ _ E) as (_ & [[_ ->]|(_ & g0 & g & _ & _ & ->)]); constructor; reflexivity.
  - destruct (initialize_cases _ _ _ _ _ E I) as [->|[[-> _]|Q]]; try (constructor; reflexivity).
    destruct Q as (_ & _ & _ & _ & a0 & T0 & T1 & a1 & W & F0 & _ & _ & _ & _ & _ & _ & (X & F1) & Q).
    destruct Q as [(b & ->)|(J & a2 & b & _ & E2 & ->)].
    + rewrite F1, F0. constructor; reflexivity.
    + pose proof (initGlobal_form _ _ _ E2) as F2. decompose [and] F2.
      constructor; cbn; (etransitivity; [eassumption|]); rewrite F1, F0; reflexivity.
  - pose proof (initGlobal_form _ _ _ E) as F2. decompose [and] F2. constructor; auto.
  - dres E. okinv E. destruct (iterate_all _ _ _ _ _ _ E0 I) as (_ & F & E1 & E2). unfold iter_frame in F. decompose [and] F.
    constructor; cbn; auto.
  - unfold is_iter. cbn [e_op e_pre]. destruct (a_thread a) eqn:Et.
    + dres E. okinv E. destruct (iterate_all _ _ _ _ _ _ E0 I) as (_ & F & E1 & E2). unfold iter_frame in F. decompose [and] F.
      constructor; unfold is_iter; cbn; rewrite ?Et; auto.
    + injection E as <-. constructor; unfold is_iter; cbn; rewrite ?Et; auto.
  - apply reset_form in E. subst a'. constructor; cbn; auto.
  - apply startLoop_form in E. destruct E as [-> _]. constructor; reflexivity.
  - injection E as <-. rewrite endLoop_form. constructor; reflexivity.
  - destruct (restart_frame _ _ _ _ E I) as (F & E1 & E2). unfold iter_frame in F. decompose [and] F. constructor; auto.
  - destruct (updNbr_form _ _ _ _ _ E I) as (_ & [[_ ->]|(_ & a1 & _ & R & _ & Q)]); [constructor; reflexivity|].
    assert (Q1 : quiet a a1).
    { destruct R as [->|(_ & T & _ & ET)]; [apply quiet_refl|]. pose proof (initGlobal_form _ _ _ ET) as F2.
      decompose [and] F2. constructor; auto. }
    destruct Q as [[_ ->]|(_ & c & _ & ->)]; [exact Q1|]. destruct Q1; constructor; cbn; auto.
  - destruct (updAux_form _ _ _ _ E) as (_ & _ & [[_ ->]|(_ & c & _ & ->)]); constructor; reflexivity.
  - injection E as <-. constructor; reflexivity.
  - unfold ag_clearActiveNeighborPoses in E. dres E. okinv E. constructor; reflexivity.
  - unfold ag_setLiftingMatrix in E. dres E. okinv E. constructor; reflexivity.
  - unfold ag_setGlobalAnchor in E. dres E. okinv E. constructor; reflexivity.
  - injection E as <-. constructor; reflexivity.
  - injection E as <-. constructor; reflexivity.
  - destruct (setActive_form _ _ _ _ I E) as [[L ->]|(L & -> & _)].
    + apply N.leb_le in L. constructor; cbn; rewrite ?L; auto.
    + apply N.leb_gt in L. constructor; cbn; rewrite ?L; auto.
  - unfold is_reweight, initialised. destruct (updWeights_cases _ _ E I) as [[Hi ->]|(Hi & ps & a1 & Q)].
    + unfold is_init in Hi. constructor; unfold is_reweight, initialised; cbn; rewrite ?Hi; auto.
    + unfold is_init in Hi. decompose [and] Q. constructor; unfold is_reweight, initialised; cbn; rewrite ?Hi; auto.
  - dres E. okinv E. apply setWeight_form in E0. destruct E0 as [-> _]. constructor; reflexivity.
  - apply initRobust_form in E. destruct E as [-> _]. constructor; reflexivity.
  - dres E. okinv E. destruct (anchorFirst_form _ _ _ E0 I) as [-> _]. constructor; reflexivity.
  - dres E. okinv E. destruct (anchorWith_form _ _ _ _ E0 I) as [-> _]. constructor; reflexivity.
Qed.

(** *** Life cycle *)
Lemma initGlobal_pre a TW a' : AInv a -> ag_initializeInGlobalFrame a TW = Ok a' -> a_state a <> WAIT_FOR_DATA.
Proof.
  intros I E. unfold ag_initializeInGlobalFrame in E. rewrite endLoop_form in E.
  destruct (a_YLift a) as [YL|] eqn:EY; [|discriminate]. cbn [bind] in E. dres E.
  cbn in E2. destruct (a_TLocal a) as [T|] eqn:ET; [|discriminate].
  apply (iv_T _ I _ ET).
Qed.

Lemma initialize_state x ls a TI a' : AInv a -> ag_initialize x ls a TI = Ok a' -> next_state a (AInit ls TI) (a_state a').
Proof.
  intros I E. cbn. unfold ag_initialize in E.
  destruct (state_eqb (a_state a) WAIT_FOR_DATA) eqn:Hs; cbn [negb] in E.
  2:{ injection E as <-. destruct (a_state a); auto; discriminate. }
  apply state_eqb_eq in Hs. rewrite Hs. rewrite endLoop_form in E. cbv zeta in E.
  change (pg_n (a_pg (sa_thread a false))) with (pg_n (a_pg a)) in E.
  destruct (pg_n (a_pg a) =? 0)%N eqn:Hn; [injection E as <-; exact Hs|]. apply N.eqb_neq in Hn.
  assert (I0 : AInv (sa_thread a false)) by (refine (inv_misc _ _ I _ _ _ _ _ _ _ _ _ _ _ _ _ _ _ _); reflexivity).
  apply bind_Ok in E. destruct E as [[a0 T] [E0 E]].
  assert (Q : a0 = sa_pg (sa_thread a false) (a_pg a0)).
  { clear E. destruct TI as [TI|].
    - destruct ((pa_d TI =? dimension (sa_thread a false))%nat && (pa_n TI =? num_poses (sa_thread a false))%nat) eqn:C.
      + injection E0 as <- <-. apply eta_pg.
      + dres E0. injection E0 as <- <-. apply (local_traj_form _ _ _ _ _ E).
    - dres E0. injection E0 as <- <-. apply (local_traj_form _ _ _ _ _ E). }
  dres E. 
  assert (P1 : a_params a0 = a_params a /\ a_id a0 = a_id a) by (rewrite Q; auto). destruct P1 as [P1 P2].
  cbn [a_id a_params sa_state sa_X sa_TLocal] in E3. rewrite P1, P2 in E3.
  assert (Hb : a_state a' = a_state y1).
  { destruct (p_async (a_params y1)); [apply startLoop_form in E; destruct E as [-> _]; reflexivity|]. injection E as <-. reflexivity. }
  rewrite Hb. destruct ((a_id a =? 0)%N || negb (p_multi (a_params a))).
  - dres E3. pose proof (initGlobal_form _ _ _ E3) as F. decompose [and] F. auto.
  - injection E3 as <-. reflexivity.
Qed.

Lemma step_state x a o a' : AInv a -> aop_ok o -> ag_step x a o = Ok a' -> next_state a o (a_state a').
Proof.
  intros I Ho E. destruct o; cbn [ag_step aop_ok next_state] in *.
  - pose proof (setX_form _ _ _ E). tauto.
  - destruct (setXInit_form _ _ E) as (X1 & _ & -> & _). reflexivity.
  - destruct (addA_form _ _ _ E) as [[_ ->]|(_ & g & _ & ->)]; reflexivity.
  - destruct (setMeasA_form _ _ _ _ _ E) as (_ & [[_ ->]|(_ & g0 & g & _ & _ & ->)]); reflexivity.
  - eapply initialize_state; eauto.
  - split; [eapply initGlobal_pre; eauto|]. apply (initGlobal_inv _ _ _ I E).
  - dres E. okinv E. destruct (iterate_all _ _ _ _ _ _ E0 I) as (_ & F & E1 & E2). unfold iter_frame in F. tauto.
  - destruct (a_thread a) eqn:Et.
    + dres E. okinv E. destruct (iterate_all _ _ _ _ _ _ E0 I) as (_ & F & E1 & E2). unfold iter_frame in F. tauto.
    + injection E as <-. reflexivity.
  - apply reset_form in E. subst a'. reflexivity.
  - apply startLoop_form in E. destruct E as [-> _]. reflexivity.
  - injection E as <-. rewrite endLoop_form. reflexivity.
  - destruct (restart_frame _ _ _ _ E I) as (F & E1 & E2). unfold iter_frame in F. tauto.
  - destruct (updNbr_form _ _ _ _ _ E I) as (_ & [[_ ->]|(_ & a1 & _ & R & _ & Q)]); [auto|].
    assert (Q1 : a_state a1 = a_state a \/ a_state a = WAIT_FOR_INITIALIZATION /\ a_state a1 = INITIALIZED).
    { destruct R as [->|(Hs & T & _ & ET)]; [auto|]. right. split; auto. apply (initGlobal_inv _ _ _ I ET). }
    destruct Q as [[_ ->]|(_ & c & _ & ->)]; exact Q1.
  - destruct (updAux_form _ _ _ _ E) as (_ & _ & [[_ ->]|(_ & c & _ & ->)]); reflexivity.
  - injection E as <-. reflexivity.
  - unfold ag_clearActiveNeighborPoses in E. dres E. okinv E. reflexivity.
  - unfold ag_setLiftingMatrix in E. dres E. okinv E. reflexivity.
  - unfold ag_setGlobalAnchor in E. dres E. okinv E. reflexivity.
  - injection E as <-. reflexivity.
  - injection E as <-. reflexivity.
  - destruct (setActive_form _ _ _ _ I E) as [[L ->]|(L & -> & _)]; reflexivity.
  - destruct (updWeights_cases _ _ E I) as [[Hi ->]|(Hi & ps & a1 & Q)]; auto.
    apply is_init_eq in Hi. decompose [and] Q. congruence.
  - dres E. okinv E. apply setWeight_form in E0. destruct E0 as [-> _]. reflexivity.
  - apply initRobust_form in E. destruct E as [-> _]. reflexivity.
  - dres E. okinv E. destruct (anchorFirst_form _ _ _ E0 I) as [-> _]. reflexivity.
  - dres E. okinv E. destruct (anchorWith_form _ _ _ _ E0 I) as [-> _]. reflexivity.
Qed.

(** *** Stored measurements *)
Lemma gsame_stored a a' : gsame (a_pg a) (a_pg a') -> stored a' = stored a.
Proof. intros []. unfold stored. rewrite !map_app. congruence. Qed.
Lemma step_graph x a o a' : AInv a -> aop_ok o -> ag_step x a o = Ok a' ->
  feeds o = false \/ a_state a <> WAIT_FOR_DATA -> gsame (a_pg a) (a_pg a').
Proof.
  intros I Ho E Hc. assert (G0 : gsame (a_pg a) (a_pg a)) by (apply gsame_refl, I).
  destruct o; cbn [ag_step aop_ok feeds] in *.
  - pose proof (setX_form _ _ _ E) as (_ & -> & _). auto.
  - destruct (setXInit_form _ _ E) as (X1 & _ & -> & _). auto.
  - destruct (addA_form _ _ _ E) as [[_ ->]|(Hs & g & _ & ->)]; auto. destruct Hc; congruence.
  - destruct (setMeasA_form _ _ _ _ _ E) as (Hs & _). destruct Hc; congruence.
  - destruct (initialize_cases _ _ _ _ _ E I) as [->|[[-> _]|Q]]; auto.
    destruct Q as (_ & _ & _ & _ & a0 & T0 & T1 & a1 & W & F0 & _ & _ & _ & _ & I1 & _ & (X & F1) & Q).
    assert (G1 : gsame (a_pg a) (a_pg a1)) by (rewrite F1; apply weq_gsame; auto; apply I).
    destruct Q as [(b & ->)|(J & a2 & b & _ & E2 & ->)]; auto.
    pose proof (initGlobal_form _ _ _ E2) as F2. decompose [and] F2.
    eapply gsame_trans; [exact G1|]. apply weq_gsame; auto. apply I1.
  - pose proof (initGlobal_form _ _ _ E) as F2. decompose [and] F2. apply weq_gsame; auto. apply I.
  - dres E. okinv E. destruct (iterate_all _ _ _ _ _ _ E0 I) as (_ & F & E1 & E2). unfold iter_frame in F. tauto.
  - destruct (a_thread a) eqn:Et.
    + dres E. okinv E. destruct (iterate_all _ _ _ _ _ _ E0 I) as (_ & F & E1 & E2). unfold iter_frame in F. tauto.
    + injection E as <-. auto.
  - apply reset_form in E. subst a'. apply resetpg_gsame, I.
  - apply startLoop_form in E. destruct E as [-> _]. auto.
  - injection E as <-. rewrite endLoop_form. auto.
  - destruct (restart_frame _ _ _ _ E I) as (F & E1 & E2). unfold iter_frame in F. tauto.
  - destruct (updNbr_form _ _ _ _ _ E I) as (_ & [[_ ->]|(_ & a1 & I1 & R & _ & Q)]); [auto|].
    assert (Q1 : gsame (a_pg a) (a_pg a1)).
    { destruct R as [->|(Hs & T & _ & ET)]; [auto|]. pose proof (initGlobal_form _ _ _ ET) as F2. decompose [and] F2.
      apply weq_gsame; auto; apply I. }
    destruct Q as [[_ ->]|(_ & c & _ & ->)]; exact Q1.
  - destruct (updAux_form _ _ _ _ E) as (_ & _ & [[_ ->]|(_ & c & _ & ->)]); auto.
  - injection E as <-. auto.
  - unfold ag_clearActiveNeighborPoses in E. dres E. okinv E. auto.
  - unfold ag_setLiftingMatrix in E. dres E. okinv E. auto.
  - unfold ag_setGlobalAnchor in E. dres E. okinv E. auto.
  - injection E as <-. auto.
  - injection E as <-. auto.
  - destruct (setActive_form _ _ _ _ I E) as [[L ->]|(L & -> & G)]; auto.
  - destruct (updWeights_cases _ _ E I) as [[Hi ->]|(Hi & ps & a1 & Q)]; auto. decompose [and] Q. auto.
  - dres E. okinv E. apply setWeight_form in E0. destruct E0 as [-> W]. apply weq_gsame; auto. apply I.
  - apply initRobust_form in E. destruct E as [-> W]. apply weq_gsame; auto; apply I.
  - dres E. okinv E. destruct (anchorFirst_form _ _ _ E0 I) as [-> G]. auto.
  - dres E. okinv E. destruct (anchorWith_form _ _ _ _ E0 I) as [-> G]. auto.
Qed.

(** *** Histories *)
Lemma events_snoc x os o : forall a a1 a2, ag_run x a os = Ok a1 -> ag_step x a1 o = Ok a2 ->
  events x a (os ++ [o]) = events x a os ++ [mkEv a1 o a2].
Proof.
  induction os as [|o1 os IH]; cbn; intros a a1 a2 E1 E2.
  - injection E1 as ->. rewrite E2. reflexivity.
  - dres E1. rewrite E. cbn. f_equal. apply (IH _ _ _ E1 E2).
Qed.

Lemma areach_snoc x id p os o a : areach x id p (os ++ [o]) a ->
  exists a1, areach x id p os a1 /\ ag_step x a1 o = Ok a /\ aop_ok o /\ AInv a1 /\
    history x id p (os ++ [o]) = history x id p os ++ [mkEv a1 o a].
Proof.
  intros [E HF]. dres E. unfold ag_run in E. rewrite foldM_app in E. dres E. cbn in E. dres E. okinv E.
  apply Forall_app in HF. destruct HF as [HF Ho]. inversion Ho; subst.
  assert (R : areach x id p os y0). { split; auto. rewrite E0. cbn. exact E1. }
  exists y0. split; auto. split; auto. split; auto. split; [eapply areach_inv; eauto|].
  unfold history. rewrite E0. apply events_snoc; auto.
Qed.
Lemma areach_nil x id p a : areach x id p [] a -> newAgent x id p = Ok a /\ history x id p [] = [].
Proof.
  intros [E _]. dres E. cbn in E. okinv E. split; auto. unfold history. rewrite E0. reflexivity.
Qed.

Lemma hist_ind x id p (P : list (event S) -> Agent S -> Prop) :
  (forall a, newAgent x id p = Ok a -> P [] a) ->
  (forall os a o a', areach x id p os a -> AInv a -> aop_ok o -> ag_step x a o = Ok a' -> P (history x id p os) a ->
     P (history x id p os ++ [mkEv a o a']) a') ->
  forall os a, areach x id p os a -> P (history x id p os) a.
Proof.
  intros H0 H1 os. induction os as [|o os IH] using rev_ind; intros a R.
  - destruct (areach_nil _ _ _ _ R) as [E ->]. auto.
  - destruct (areach_snoc _ _ _ _ _ _ R) as (a1 & R1 & E & Ho & I & ->). eapply H1; eauto.
Qed.

Lemma since_snoc {A} (f : A -> bool) l (v : A) : since f (l ++ [v]) = if f v then [] else since f l ++ [v].
Proof.
  induction l as [|b l IH]; cbn; [reflexivity|].
  rewrite existsb_app. cbn. rewrite IH, orb_false_r. destruct (f v); [rewrite orb_true_r; reflexivity|]. rewrite orb_false_r.
  destruct (existsb f l); auto. destruct (f b); reflexivity.
Qed.
Lemma count_snoc {A} (f : A -> bool) l (v : A) : SpecAgent.count f (l ++ [v]) = (SpecAgent.count f l + if f v then 1 else 0)%N.
Proof.
  unfold SpecAgent.count. rewrite filter_app, app_length, Nat2N.inj_add. cbn. destruct (f v); reflexivity.
Qed.
Lemma last_some_snoc {A B} (f : A -> option B) l (v : A) :
  last_some f (l ++ [v]) = match f v with Some b => Some b | None => last_some f l end.
Proof. induction l as [|b l IH]; cbn; [destruct (f v); auto|]. rewrite IH. destruct (f v); auto. Qed.

Lemma upto_snoc {A} (f : A -> bool) l (v : A) : upto f (l ++ [v]) = if f v then l ++ [v] else upto f l.
Proof.
  induction l as [|b l IH]; cbn; [reflexivity|].
  rewrite existsb_app. cbn. rewrite IH, orb_false_r. destruct (f v); [rewrite orb_true_r; reflexivity|]. rewrite orb_false_r.
  destruct (existsb f l); auto.
Qed.

Lemma u32_plus (m n : N) : u32 (u32 m + n) = u32 (m + n).
Proof. unfold u32. apply N.add_mod_idemp_l. discriminate. Qed.
Lemma u32_u32 (m : N) : u32 (u32 m) = u32 m.
Proof. unfold u32. apply N.mod_mod. discriminate. Qed.

(** Resets are never iterations or weight updates. *)
Lemma reset_not_iter e : is_reset e = true -> is_iter e = false.
Proof. unfold is_reset, is_iter. destruct (e_op e); auto; discriminate. Qed.
Lemma reset_not_rw e : is_reset e = true -> is_reweight e = false.
Proof. unfold is_reset, is_reweight. destruct (e_op e); auto; discriminate. Qed.
Lemma rw_not_iter e : is_reweight e = true -> is_iter e = false.
Proof. unfold is_reweight, is_iter. destruct (e_op e); auto; discriminate. Qed.

Definition rr e : bool := is_reset e || is_reweight e.

Lemma since_nil {A} (f : A -> bool) : since f [] = []. Proof. reflexivity. Qed.

Lemma since_rr l : SpecAgent.count is_iter (since rr l) = SpecAgent.count is_iter (since is_reweight (since is_reset l)).
Proof.
  induction l as [|e l IH] using rev_ind; [reflexivity|].
  rewrite !since_snoc. unfold rr at 1. destruct (is_reset e) eqn:Hr; cbn [orb]; [reflexivity|].
  rewrite since_snoc. destruct (is_reweight e) eqn:Hw; cbn [orb]; [reflexivity|]. rewrite !count_snoc, IH. reflexivity.
Qed.

(** Counters as functions of the history. *)
Definition hist_facts id (p : AgentParams S) (es : list (event S)) a : Prop :=
  a_id a = id /\ a_params a = p /\
  a_inst a = u32 (SpecAgent.count is_reset es) /\
  a_iter a = u32 (SpecAgent.count is_iter (since is_reset es)) /\
  a_wuc a = Z.of_N (SpecAgent.count is_reweight (since is_reset es)) /\
  a_inner a = (if robust a then Z.of_N (SpecAgent.count is_iter (since is_reweight (since is_reset es))) else 0)%Z /\
  a_lwu a = u32 (SpecAgent.count is_iter (upto is_reweight (since is_reset es))) /\
  (forall k, mfind N.ltb k (a_team a) = last_some (status_of k) (since is_reweight (since is_reset es))) /\
  (forall k, (k < p_numRobots p)%N -> nth_error (a_active a) (N.to_nat k) = Some (active_now k es)).

Lemma count_le {A} (f : A -> bool) (P : A -> bool) l : (SpecAgent.count f (since P l) <= SpecAgent.count f l)%N.
Proof.
  induction l as [|v l IH] using rev_ind; [reflexivity|]. rewrite since_snoc, count_snoc.
  destruct (P v); [cbn; lia|]. rewrite count_snoc. lia.
Qed.

Lemma hist_all x id p os a : areach x id p os a -> hist_facts id p (history x id p os) a.
Proof.
  revert os a. apply (hist_ind x id p (hist_facts id p)).
  - intros a E. destruct (new_form _ _ _ _ E) as (X & g & YL & EX & Eg & -> & _).
    unfold hist_facts. cbn. split; [reflexivity|]. split; [reflexivity|]. split; [reflexivity|].
    split; [reflexivity|]. split; [reflexivity|]. split; [destruct (robust _); reflexivity|].
    split; [reflexivity|]. split; [reflexivity|].
    intros k Hk. cbn. rewrite nth_error_repeat by lia. reflexivity.
  - intros os a o a' R I Ho E (H1 & H2 & H3 & H4 & H5 & H6 & H7 & H8 & H9).
    pose proof (step_effects _ _ _ _ I Ho E) as F. destruct F as [F1 F2 F3 F4 F5 F6 F7 F8 F9].
    cbn [e_pre e_post] in *. set (e := mkEv a o a') in *. set (es := history x id p os) in *.
    assert (Hrob : robust a' = robust a) by (unfold robust; rewrite F2; auto).
    unfold hist_facts. rewrite F1, F2, F3, F4, F5, F6, F7, Hrob. rewrite !since_snoc, !count_snoc.
    split; auto. split; auto.
    destruct (is_reset e) eqn:Hr.
    { cbn [orb since count filter length]. rewrite H3. split; [rewrite u32_plus; reflexivity|].
      split; [reflexivity|]. split; [reflexivity|]. split; [destruct (robust a); reflexivity|].
      split; [reflexivity|]. split; [intros k; rewrite F8; reflexivity|].
      intros k Hk. rewrite F9, H2. unfold active_now. rewrite last_some_snoc.
      rewrite nth_error_repeat by lia. unfold is_reset in Hr. cbn in Hr. destruct o; try discriminate. reflexivity. }
    cbn [orb]. rewrite H3, H4, H5, H6, N.add_0_r.
    split; [reflexivity|]. rewrite count_snoc.
    split; [destruct (is_iter e); [rewrite u32_plus|rewrite N.add_0_r]; reflexivity|].
    rewrite count_snoc, upto_snoc.
    split; [destruct (is_reweight e); [rewrite N2Z.inj_add; reflexivity|rewrite N.add_0_r; reflexivity]|].
    rewrite since_snoc. destruct (is_reweight e) eqn:Hw.
    { rewrite count_snoc, (rw_not_iter _ Hw). cbn [count filter length]. rewrite !N.add_0_r.
      split; [destruct (robust a); reflexivity|]. split; [reflexivity|].
      split; [intros k; rewrite F8; reflexivity|].
      intros k Hk. unfold active_now. rewrite last_some_snoc.
      assert (A0 : active_of k e = None) by (unfold is_reweight in Hw; cbn in Hw; destruct o; auto; discriminate).
      rewrite A0, F9. unfold is_reweight in Hw. cbn in Hw. destruct o; try discriminate. apply (H9 k Hk). }
    rewrite !count_snoc.
    split. { destruct (is_iter e), (robust a); cbn [andb]; rewrite ?N.add_0_r; lia. }
    split; [exact H7|].
    split.
    { intros k. rewrite F8, last_some_snoc. unfold status_of at 1. cbn [e_op].
      destruct o as [| | | | | | | | | | | | | | | | | |s| | | | | | |]; cbn [e_op e]; try apply H8.
      rewrite <- (H8 k). cbn. destruct (st_id s =? k)%N eqn:Ek.
      - apply N.eqb_eq in Ek. subst k. apply mfind_mset_eq, Nltb_total.
      - apply N.eqb_neq in Ek. rewrite (mfind_mset_neq _ Nltb_total) by auto. reflexivity. }
    intros k Hk. rewrite F9, H2. unfold active_now. rewrite last_some_snoc. unfold active_of at 1. cbn [e_op].
    destruct o as [| | | | | | | | | | | | | | | | | | | |k' b| | | | |]; cbn [e_op e]; try apply (H9 k Hk); try discriminate.
    cbn. destruct (p_numRobots p <=? k')%N eqn:L.
    + apply N.leb_le in L. destruct (k' =? k)%N eqn:Ek; [apply N.eqb_eq in Ek; lia|]. apply (H9 k Hk).
    + apply N.leb_gt in L. rewrite list_update_nth. destruct (k' =? k)%N eqn:Ek.
      * apply N.eqb_eq in Ek. subst k'. rewrite Nat.eqb_refl, (H9 k Hk). reflexivity.
      * apply N.eqb_neq in Ek. destruct (Nat.eqb (N.to_nat k') (N.to_nat k)) eqn:Ek'; [apply Nat.eqb_eq in Ek'; lia|].
        apply (H9 k Hk).
Qed.

End A.
