(** Invariant of a reachable agent. *)
From Coq Require Import List NArith ZArith Bool Arith Lia.
From Verif Require Import Base SMap Num ModelTypes ModelPoseGraph ModelProblem ModelRobust ModelPoses ModelSolver ModelAgent
  SpecPoseGraph SpecPGHist SpecSolver SpecAgent ProofsPoseGraph ProofsPGHist ProofsPGMain ProofsPGData ProofsPoses.
Import ListNotations.
Local Open Scope res_scope.

(** Decompose a successful computation. *)
Ltac dres H :=
  repeat (cbv zeta beta in H;
    match type of H with
    | bind _ _ = Ok _ =>
        let y := fresh "y" in let E := fresh "E" in
        apply bind_Ok in H; destruct H as [y [E H]]
    | check _ _ = Ok _ => let E := fresh "C" in apply check_Ok in H; destruct H as [E H]
    | require _ _ = Ok _ => let E := fresh "C" in apply require_Ok in H; destruct H as [E H]
    | Abort = Ok _ => discriminate H
    | UB = Ok _ => discriminate H
    | (match ?v with (_, _) => _ end) = Ok _ => destruct v
    end).
Ltac sp := repeat match goal with |- _ /\ _ => split end.
Ltac okinv H := injection H as H; subst.

Section A.
Context {S : Type} `{HS : Num S}.
Implicit Types (a : Agent S) (g : PoseGraph S) (T X : PoseArr S) (x : Ext S).

(** Same graph as far as the agent's invariant is concerned. *)
Record gsame g g' : Prop := {
  gs_wf : pg_wf g'; gs_id : pg_id g' = pg_id g; gs_r : pg_r g' = pg_r g; gs_d : pg_d g' = pg_d g;
  gs_n : pg_n g' = pg_n g;
  gs_odom : map strip (pg_odom g') = map strip (pg_odom g);
  gs_priv : map strip (pg_priv g') = map strip (pg_priv g);
  gs_shared : map strip (pg_shared g') = map strip (pg_shared g);
  gs_lpub : pg_lpub g' = pg_lpub g; gs_npub : pg_npub g' = pg_npub g; gs_nbrs : pg_nbrs g' = pg_nbrs g }.

Lemma gsame_refl g : pg_wf g -> gsame g g.
Proof. constructor; auto. Qed.
Lemma gsame_trans g1 g2 g3 : gsame g1 g2 -> gsame g2 g3 -> gsame g1 g3.
Proof. intros [] []; constructor; congruence. Qed.
Lemma weq_gsame g g' : pg_wf g -> weq g g' -> gsame g g'.
Proof. intros W E. pose proof (weq_wf _ _ E W). destruct E. constructor; auto. Qed.
Lemma weq_refl g : weq g g. Proof. constructor; reflexivity. Qed.
Lemma weq_trans g1 g2 g3 : weq g1 g2 -> weq g2 g3 -> weq g1 g3.
Proof. intros [] []; constructor; congruence. Qed.
Lemma core_gsame g g' : pg_wf g -> pg_wf g' -> core_eq g g' -> gsame g g'.
Proof.
  intros W W' C. unfold core_eq in C. decompose [and] C. constructor; auto; try congruence.
Qed.

Lemma modify_weight_weq g p w : weq g (modify g p (set_mweight w)).
Proof. destruct p; constructor; cbn; try reflexivity; apply list_update_map; reflexivity. Qed.
Lemma modify_gen_weq g p (f : Meas S -> Meas S) : (forall m, strip (f m) = strip m) -> weq g (modify g p f).
Proof. intros F. destruct p; constructor; cbn; try reflexivity; apply list_update_map; auto. Qed.

Lemma eta_pg_rc a : a = sa_pg (sa_rc a (a_rc a)) (a_pg a).
Proof. destruct a; reflexivity. Qed.
Lemma eta_acc a : a = sa_XPrev (sa_V (sa_Y (sa_alpha (sa_gamma a (a_gamma a)) (a_alpha a)) (a_Y a)) (a_V a)) (a_XPrev a).
Proof. destruct a; reflexivity. Qed.
Lemma eta_X_pg a : a = sa_X (sa_pg a (a_pg a)) (a_X a).
Proof. destruct a; reflexivity. Qed.

Record AInv a : Prop := {
  iv_pg : pg_wf (a_pg a);
  iv_id : pg_id (a_pg a) = a_id a;
  iv_r : pg_r (a_pg a) = p_r (a_params a);
  iv_d : pg_d (a_pg a) = p_d (a_params a);
  iv_dr : (p_d (a_params a) <= p_r (a_params a))%nat;
  iv_X : a_state a <> WAIT_FOR_DATA -> pg_n (a_pg a) <> 0%N /\ arr (p_r (a_params a)) (p_d (a_params a)) (num_poses a) (a_X a);
  iv_acc : p_accel (a_params a) = true -> a_state a = INITIALIZED ->
    arr (p_r (a_params a)) (p_d (a_params a)) (num_poses a) (a_Y a) /\
    arr (p_r (a_params a)) (p_d (a_params a)) (num_poses a) (a_V a) /\
    arr (p_r (a_params a)) (p_d (a_params a)) (num_poses a) (a_XPrev a);
  iv_XI : forall X, a_XInit a = Some X -> a_state a <> WAIT_FOR_DATA /\ arr (p_r (a_params a)) (p_d (a_params a)) (num_poses a) X;
  iv_T : forall T, a_TLocal a = Some T -> a_state a <> WAIT_FOR_DATA /\ arr (p_d (a_params a)) (p_d (a_params a)) (num_poses a) T;
  iv_T2 : a_state a <> WAIT_FOR_DATA -> a_TLocal a <> None;
  iv_Y : forall Y, a_YLift a = Some Y -> mrows Y = p_r (a_params a) /\ mcols Y = p_d (a_params a);
  iv_anc : forall Y, a_anchor a = Some Y -> mrows Y = p_r (a_params a) /\ mcols Y = (p_d (a_params a) + 1)%nat;
  iv_act : length (a_active a) = N.to_nat (p_numRobots (a_params a));
  iv_team : msorted N.ltb (a_team a) /\ forall k s, mfind N.ltb k (a_team a) = Some s -> st_id s = k;
  iv_nd0 : a_state a <> INITIALIZED -> a_ndict a = [] /\ a_naux a = [];
  iv_nd : msorted pose_ltb (a_ndict a) /\ forall p v, mfind pose_ltb p (a_ndict a) = Some v ->
     In p (pg_npub (a_pg a)) /\ mrows v = p_r (a_params a) /\ mcols v = (p_d (a_params a) + 1)%nat;
  iv_na : msorted pose_ltb (a_naux a) /\ forall p v, mfind pose_ltb p (a_naux a) = Some v ->
     In p (pg_npub (a_pg a)) /\ mrows v = p_r (a_params a) /\ mcols v = (p_d (a_params a) + 1)%nat }.

Lemma inv_pg a g' : AInv a -> gsame (a_pg a) g' -> AInv (sa_pg a g').
Proof.
  intros I G. destruct G as [W E1 E2 E3 E4 _ _ _ E5 E6 E7]. destruct I.
  constructor; cbn; unfold num_poses in *; cbn; rewrite ?E1, ?E2, ?E3, ?E4, ?E6; auto.
Qed.

(** Fields without influence on the invariant. *)
Lemma inv_misc a a' : AInv a ->
  a_id a' = a_id a -> a_params a' = a_params a -> a_X a' = a_X a -> a_state a' = a_state a -> a_pg a' = a_pg a ->
  a_team a' = a_team a -> a_active a' = a_active a -> a_XInit a' = a_XInit a -> a_TLocal a' = a_TLocal a ->
  a_YLift a' = a_YLift a -> a_anchor a' = a_anchor a -> a_ndict a' = a_ndict a -> a_naux a' = a_naux a ->
  a_Y a' = a_Y a -> a_V a' = a_V a -> a_XPrev a' = a_XPrev a -> AInv a'.
Proof.
  intros [] E1 E2 E3 E4 E5 E6 E7 E8 E9 E10 E11 E12 E13 E14 E15 E16.
  constructor; unfold num_poses in *;
    rewrite ?E1, ?E2, ?E3, ?E4, ?E5, ?E6, ?E7, ?E8, ?E9, ?E10, ?E11, ?E12, ?E13, ?E14, ?E15, ?E16; auto.
Qed.
Ltac misc I := refine (inv_misc _ _ I _ _ _ _ _ _ _ _ _ _ _ _ _ _ _ _); reflexivity.

Lemma state_eqb_eq s t : state_eqb s t = true <-> s = t.
Proof. destruct s, t; cbn; split; intros; try discriminate; auto. Qed.
Lemma state_eqb_neq s t : state_eqb s t = false <-> s <> t.
Proof. destruct s, t; cbn; split; intros; try discriminate; auto; congruence. Qed.
Lemma is_init_eq a : is_init a = true <-> a_state a = INITIALIZED.
Proof. apply state_eqb_eq. Qed.
Lemma is_init_neq a : is_init a = false <-> a_state a <> INITIALIZED.
Proof. apply state_eqb_neq. Qed.

(** *** Arrays *)
Lemma pa_setData_arr r d n T M T' : arr r d n T -> pa_setData T M = Ok T' -> arr r d n T' /\ pa_X (T' : PoseArr S) = M.
Proof.
  intros (E1 & E2 & E3 & E4 & E5) E. unfold pa_setData in E. dres E. okinv E.
  apply Nat.eqb_eq in C, C0. split; [|reflexivity].
  unfold arr; cbn. rewrite C, C0. auto.
Qed.
Lemma blank_arr r d n (T : PoseArr S) : blank r d n n T -> arr r d n T.
Proof. unfold blank, arr. intros; decompose [and] H; repeat split; auto. Qed.
Lemma pa_new_arr r d n (T : PoseArr S) : pa_new r d n = Ok T -> arr r d n T.
Proof.
  intros E. assert (Hd : (d <= r)%nat).
  { unfold pa_new in E. apply require_Ok in E. destruct E as [C _]. apply Nat.leb_le; auto. }
  destruct (pa_new_spec (S := S) r d n Hd) as [a [Ea B]]. rewrite E in Ea. okinv Ea. apply blank_arr; auto.
Qed.
Lemma pa_set_pose_arr r d n T i B T' : arr r d n T -> pa_set_pose T i B = Ok T' -> arr r d n (T' : PoseArr S).
Proof. intros (E1 & E2 & E3 & E4 & E5) E. unfold pa_set_pose in E. dres E. okinv E. unfold arr; cbn; auto 10. Qed.
Lemma pa_set_rot_arr r d n T i B T' : arr r d n T -> pa_set_rot T i B = Ok T' -> arr r d n (T' : PoseArr S).
Proof. intros (E1 & E2 & E3 & E4 & E5) E. unfold pa_set_rot in E. dres E. okinv E. unfold arr; cbn; auto 10. Qed.
Lemma pa_set_trans_arr r d n T i B T' : arr r d n T -> pa_set_trans T i B = Ok T' -> arr r d n (T' : PoseArr S).
Proof. intros (E1 & E2 & E3 & E4 & E5) E. unfold pa_set_trans in E. dres E. okinv E. unfold arr; cbn; auto 10. Qed.

Lemma foldM_P {A B} (P : A -> Prop) (f : A -> B -> res A) l : forall u u', P u ->
  (forall u b u', P u -> f u b = Ok u' -> P u') -> foldM f u l = Ok u' -> P u'.
Proof.
  induction l as [|b l IH]; cbn; intros a a' Pa F E; [okinv E; auto|].
  apply bind_Ok in E. destruct E as [a1 [E1 E2]].
  exact (IH _ _ (F _ _ _ Pa E1) F E2).
Qed.

Lemma transform_all_arr TW n r d N T T' : arr r d N T -> transform_all TW n T = Ok T' -> arr r d N (T' : PoseArr S).
Proof.
  intros HT E. unfold transform_all in E. eapply foldM_P; [exact HT| |exact E].
  cbn. intros T1 i T2 H1 E1. dres E1. eapply pa_set_pose_arr; eauto.
Qed.
Lemma to_first_frame_arr x d n T T' : to_first_frame x d n T = Ok T' -> arr d d n (T' : PoseArr S).
Proof.
  unfold to_first_frame. intros E. dres E. eapply foldM_P; [eapply pa_new_arr; eauto| |exact E].
  cbn. intros T1 i T2 H1 E1'. dres E1'. eapply pa_set_pose_arr; eauto.
Qed.

(** *** Simple calls *)
Lemma setLift_inv a M a' : AInv a -> ag_setLiftingMatrix a M = Ok a' -> AInv a'.
Proof.
  intros I E. unfold ag_setLiftingMatrix in E. dres E. okinv E. destruct I. constructor; cbn; auto.
  intros Y EY. okinv EY. apply Nat.eqb_eq in C, C0. auto.
Qed.

Lemma initAccel_inv a a' : AInv a -> ag_initializeAcceleration a = Ok a' -> AInv a'.
Proof.
  intros I E. unfold ag_initializeAcceleration in E. dres E.
  destruct (is_init a) eqn:Hi; okinv E; auto.
  destruct I. constructor; cbn; auto.
  intros Ha Hs. cbn in *. destruct (iv_X0 ltac:(congruence)) as [_ HX]. auto.
Qed.

Lemma initAccel_form a a' : ag_initializeAcceleration a = Ok a' ->
  exists gm al Y V XP, a' = sa_XPrev (sa_V (sa_Y (sa_alpha (sa_gamma a gm) al) Y) V) XP.
Proof.
  intros E. unfold ag_initializeAcceleration in E. dres E.
  destruct (is_init a) eqn:Hi; okinv E.
  - exists n0, n0, (a_X a), (a_X a), (a_X a). reflexivity.
  - exists (a_gamma a'), (a_alpha a'), (a_Y a'), (a_V a'), (a_XPrev a'). destruct a'; reflexivity.
Qed.

(** Fields replaced when the state INITIALIZED is entered. *)
Lemma inv_enter a a' : AInv a -> a_state a <> WAIT_FOR_DATA -> a_state a' = INITIALIZED ->
  a_id a' = a_id a -> a_params a' = a_params a -> a_pg a' = a_pg a ->
  arr (p_r (a_params a)) (p_d (a_params a)) (num_poses a) (a_X a') ->
  (p_accel (a_params a) = true -> a_Y a' = a_X a' /\ a_V a' = a_X a' /\ a_XPrev a' = a_X a') ->
  a_team a' = a_team a -> a_active a' = a_active a -> a_XInit a' = a_XInit a -> a_TLocal a' = a_TLocal a ->
  a_YLift a' = a_YLift a -> a_anchor a' = a_anchor a -> a_ndict a' = a_ndict a -> a_naux a' = a_naux a -> AInv a'.
Proof.
  intros I Hs Hs' E1 E2 E5 HX Hacc E6 E7 E8 E9 E10 E11 E12 E13.
  pose proof (iv_X _ I Hs) as [Hn _]. pose proof (iv_XI _ I) as QXI. pose proof (iv_T _ I) as QT. pose proof (iv_T2 _ I Hs) as QT2.
  destruct I. constructor; unfold num_poses in *; rewrite ?E1, ?E2, ?E5, ?E6, ?E7, ?E8, ?E9, ?E10, ?E11, ?E12, ?E13; auto; try congruence.
  - intros Ha _. destruct (Hacc Ha) as (-> & -> & ->). auto.
  - intros X EX. destruct (QXI X EX). split; auto. congruence.
  - intros X EX. destruct (QT X EX). split; auto. congruence.
Qed.

(** The state INITIALIZED is entered with X already of the right size. *)
Lemma setX_inv a M a' : AInv a -> ag_setX a M = Ok a' -> AInv a'.
Proof.
  intros I E. unfold ag_setX in E. dres E.
  apply negb_true_iff, state_eqb_neq in C.
  destruct (iv_X _ I C) as [Hn HX].
  change (a_X (sa_state a INITIALIZED)) with (a_X a) in E0. destruct (pa_setData_arr _ _ _ _ _ _ HX E0) as [HX' _].
  change (p_accel (a_params (sa_X (sa_state a INITIALIZED) y))) with (p_accel (a_params a)) in E.
  destruct (p_accel (a_params a)) eqn:Ha.
  - unfold ag_initializeAcceleration in E. apply check_Ok in E. destruct E as [_ E].
    change (is_init (sa_X (sa_state a INITIALIZED) y)) with true in E. cbv iota in E. injection E as <-.
    refine (inv_enter _ _ I C _ _ _ _ _ _ _ _ _ _ _ _ _ _); try reflexivity; auto.
  - injection E as <-. refine (inv_enter _ _ I C _ _ _ _ _ _ _ _ _ _ _ _ _ _); try reflexivity; auto. congruence.
Qed.

Lemma setXInit_inv a a' : AInv a -> ag_setXToInitialGuess a = Ok a' -> AInv a'.
Proof.
  intros I E. unfold ag_setXToInitialGuess in E. dres E.
  apply negb_true_iff, state_eqb_neq in C.
  destruct (a_XInit a) as [X|] eqn:EX; [|discriminate]. okinv E.
  destruct (iv_XI _ I X EX) as [_ HX]. destruct (iv_X _ I C) as [Hn _]. destruct I. constructor; cbn; auto.
Qed.

Lemma clearNbr_inv a : AInv a -> AInv (ag_clearNeighborPoses a).
Proof. intros []. constructor; cbn; auto; split; try exact I; intros; discriminate. Qed.

Lemma poseid_eqb_eq p q : poseid_eqb p q = true <-> p = q.
Proof.
  unfold poseid_eqb. rewrite andb_true_iff, !N.eqb_eq. destruct p, q; cbn. split; [intros []; congruence|].
  intros E; inversion E; auto.
Qed.
Lemma keqb_pose p q : keqb pose_ltb p q = poseid_eqb p q.
Proof.
  destruct (poseid_eqb p q) eqn:E.
  - apply poseid_eqb_eq in E. subst. unfold keqb. rewrite (st_irr _ pose_total). reflexivity.
  - destruct (keqb pose_ltb p q) eqn:K; auto. unfold keqb in K. apply andb_true_iff in K. destruct K as [K1 K2].
    apply negb_true_iff in K1, K2. pose proof (st_total _ pose_total _ _ K1 K2) as ->.
    assert (poseid_eqb q q = true) by (apply poseid_eqb_eq; auto). congruence.
Qed.

Lemma fold_merase (ids : list PoseID) : forall c : list (PoseID * Mx S), msorted pose_ltb c ->
  msorted pose_ltb (fold_left (fun m p => merase pose_ltb p m) ids c) /\
  forall p, mfind pose_ltb p (fold_left (fun m p => merase pose_ltb p m) ids c) =
            (if existsb (poseid_eqb p) ids then None else mfind pose_ltb p c).
Proof.
  induction ids as [|q ids IH]; cbn; intros c Hc; [auto|].
  destruct (IH (merase pose_ltb q c) (merase_sorted _ pose_total _ _ Hc)) as [H1 H2].
  split; auto. intros p. rewrite H2, (mfind_merase _ pose_total _ _ _ Hc), keqb_pose.
  destruct (existsb (poseid_eqb p) ids), (poseid_eqb p q); auto.
Qed.

Lemma clearActive_inv a a' : AInv a -> ag_clearActiveNeighborPoses a = Ok a' -> AInv a'.
Proof.
  intros I E. unfold ag_clearActiveNeighborPoses in E. dres E. okinv E.
  destruct (fold_merase y _ (proj1 (iv_nd _ I))) as [N1 N2].
  destruct (fold_merase y _ (proj1 (iv_na _ I))) as [M1 M2].
  destruct I. constructor; cbn; auto.
  - intros Hs. destruct (iv_nd1 Hs) as [-> ->]. split; clear; induction y; cbn; auto.
  - split; auto. intros p v. rewrite N2. destruct (existsb (poseid_eqb p) y); [discriminate|]. apply iv_nd2.
  - split; auto. intros p v. rewrite M2. destruct (existsb (poseid_eqb p) y); [discriminate|]. apply iv_na0.
Qed.

Lemma endLoop_inv a : AInv a -> AInv (ag_endOptimizationLoop a).
Proof. intros I. unfold ag_endOptimizationLoop. destruct (a_thread a); auto. misc I. Qed.
Lemma endLoop_form a : ag_endOptimizationLoop a = sa_thread a false.
Proof. unfold ag_endOptimizationLoop. destruct (a_thread a) eqn:E; auto. destruct a; cbn in *; subst; reflexivity. Qed.
Lemma startLoop_form a a' : ag_startOptimizationLoop a = Ok a' -> a' = sa_thread a true /\ p_accel (a_params a) = false.
Proof.
  unfold ag_startOptimizationLoop. intros E. dres E. apply negb_true_iff in C.
  destruct (a_thread a) eqn:Et; okinv E; auto. split; auto. destruct a'; cbn in *; subst; reflexivity.
Qed.
Lemma startLoop_inv a a' : AInv a -> ag_startOptimizationLoop a = Ok a' -> AInv a'.
Proof. intros I E. apply startLoop_form in E. destruct E as [-> _]. misc I. Qed.

(** *** Measurements and weights *)
Lemma wf_n0 a : AInv a -> a_state a = WAIT_FOR_DATA -> a_TLocal a = None /\ a_XInit a = None.
Proof.
  intros I Hs. split.
  - destruct (a_TLocal a) eqn:E; auto. destruct (iv_T _ I _ E). congruence.
  - destruct (a_XInit a) eqn:E; auto. destruct (iv_XI _ I _ E). congruence.
Qed.

Lemma inv_newpg a g' : AInv a -> a_state a = WAIT_FOR_DATA -> pg_wf g' -> pg_id g' = a_id a ->
  pg_r g' = p_r (a_params a) -> pg_d g' = p_d (a_params a) -> AInv (sa_pg a g').
Proof.
  intros I Hs W E1 E2 E3. destruct (wf_n0 _ I Hs) as [T0 X0].
  destruct (iv_nd0 _ I ltac:(congruence)) as [D0 A0].
  destruct I. constructor; cbn; auto; try congruence; rewrite ?D0, ?A0; cbn; split; auto; try exact I; intros; discriminate.
Qed.

Lemma add_ids g m g' : pg_wf g -> ids_ok m -> addMeasurement g m = Ok g' ->
  pg_id g' = pg_id g /\ pg_r g' = pg_r g /\ pg_d g' = pg_d g.
Proof.
  intros W Hm E.
  assert (D := adds_dims [m] g g' (Forall_cons _ Hm (Forall_nil _))). cbn in D. rewrite E in D. specialize (D eq_refl).
  destruct (add_effect g m g' Hm E) as [? _]. intuition.
Qed.

Lemma add_inv a m a' : AInv a -> ids_ok m -> ag_addMeasurement a m = Ok a' -> AInv a'.
Proof.
  intros I Hm E. unfold ag_addMeasurement in E.
  destruct (state_eqb (a_state a) WAIT_FOR_DATA) eqn:Hs; cbn in E; [|okinv E; auto].
  dres E. okinv E. apply state_eqb_eq in Hs.
  destruct (add_ids _ _ _ (iv_pg _ I) Hm E0) as (A1 & A2 & A3).
  apply inv_newpg; auto; try (rewrite ?A1, ?A2, ?A3; apply I).
  eapply addMeasurement_wf; eauto. apply I.
Qed.

Lemma setMeas_fields g ms g' : Forall ids_ok ms -> setMeasurements g ms = Ok g' ->
  pg_wf g' /\ pg_id g' = pg_id g /\ pg_r g' = pg_r g /\ pg_d g' = pg_d g.
Proof.
  intros HF E. unfold setMeasurements in E.
  eapply (foldM_inv (fun g' => pg_wf g' /\ pg_id g' = pg_id g /\ pg_r g' = pg_r g /\ pg_d g' = pg_d g) ids_ok); [|exact HF| |exact E].
  - intros g1 m g2 Hm (W & A1 & A2 & A3) E1. destruct (add_ids _ _ _ W Hm E1) as (B1 & B2 & B3).
    split; [eapply addMeasurement_wf; eauto|]. repeat split; congruence.
  - split; [apply pg_empty_wf|]. auto.
Qed.

Lemma setMeas_inv a od priv sh a' : AInv a -> Forall ids_ok (od ++ priv ++ sh) ->
  ag_setMeasurements a od priv sh = Ok a' -> AInv a'.
Proof.
  intros I HF E. unfold ag_setMeasurements in E. dres E. apply state_eqb_eq in C0.
  destruct od as [|m od]; [okinv E; auto|]. dres E. okinv E.
  destruct (new_fields _ _ _ _ E0) as (A1 & A2 & A3 & _).
  destruct (setMeas_fields _ _ _ HF E1) as (W & B1 & B2 & B3).
  apply inv_newpg; auto; congruence.
Qed.

Lemma setWeight_form a src dst w f a' b : ag_setMeasurementWeight a src dst w f = Ok (a', b) ->
  a' = sa_pg a (a_pg a') /\ weq (a_pg a) (a_pg a').
Proof.
  unfold ag_setMeasurementWeight. intros E. dres E. destruct y as [p|]; okinv E; cbn.
  - split; [reflexivity|apply modify_weq].
  - split; [destruct a'; reflexivity|apply weq_refl].
Qed.
Lemma setWeight_inv a src dst w f a' b : AInv a -> ag_setMeasurementWeight a src dst w f = Ok (a', b) -> AInv a'.
Proof.
  intros I E. apply setWeight_form in E. destruct E as [-> E]. apply inv_pg; auto. apply weq_gsame; auto. apply I.
Qed.

Lemma fold_modify_weq ps (f : Meas S -> Meas S) : (forall m, strip (f m) = strip m) -> forall g,
  weq g (fold_left (fun g p => modify g p f) ps g).
Proof.
  intros F. induction ps as [|p ps IH]; cbn; intros g; [apply weq_refl|].
  eapply weq_trans; [apply modify_gen_weq; exact F|apply IH].
Qed.
Lemma initRobust_form a a' : ag_initializeRobustOptimization a = Ok a' ->
  a' = sa_pg (sa_rc a (rc_reset (a_rc a))) (a_pg a') /\ weq (a_pg a) (a_pg a').
Proof.
  unfold ag_initializeRobustOptimization. intros E. dres E. okinv E. cbn. split; [reflexivity|].
  apply fold_modify_weq. intros m. destruct (mfixed m); reflexivity.
Qed.
Lemma initRobust_inv a a' : AInv a -> ag_initializeRobustOptimization a = Ok a' -> AInv a'.
Proof.
  intros I E. apply initRobust_form in E. destruct E as [-> E].
  apply inv_pg; [misc I|cbn]. apply weq_gsame; auto. apply I.
Qed.

(** *** Global frame *)
Lemma initGlobal_inv a TW a' : AInv a -> ag_initializeInGlobalFrame a TW = Ok a' -> AInv a' /\ a_state a' = INITIALIZED.
Proof.
  intros I E. unfold ag_initializeInGlobalFrame in E. rewrite endLoop_form in E.
  destruct (a_YLift a) as [YL|] eqn:EY; [|discriminate]. cbn [bind] in E. dres E.
  cbn in E2. destruct (a_TLocal a) as [T|] eqn:ET; [|discriminate]. cbn in E2. injection E2 as <-.
  destruct (iv_T _ I T ET) as [Hs HT].
  change (num_poses (ag_clearNeighborPoses (sa_thread a false))) with (num_poses a) in *.
  pose proof (transform_all_arr _ _ _ _ _ _ _ HT E3) as HT'.
  destruct (iv_X _ I Hs) as [Hn HX]. cbn in E4.
  destruct (pa_setData_arr _ _ _ _ _ _ HX E4) as [HX' _].
  set (a1 := sa_state _ INITIALIZED) in E5.
  assert (I1 : p_accel (a_params a1) = false -> AInv a1).
  { intros Ha. destruct I. constructor; cbn; auto; try congruence; try discriminate.
    - intros Ha'. cbn in Ha. congruence.
    - intros X EX. injection EX as <-. split; auto. discriminate.
    - intros T1 EX. rewrite ET in EX. injection EX as <-. split; auto. discriminate.
    - split; try exact I. intros; discriminate.
    - split; try exact I. intros; discriminate. }
  (* with acceleration the auxiliary arrays are set before anything reads them *)
  assert (F5 : y4 = sa_pg (sa_rc a1 (a_rc y4)) (a_pg y4) /\ weq (a_pg a1) (a_pg y4)).
  { destruct (robust a1); [|injection E5 as <-; split; [apply eta_pg_rc|apply weq_refl]].
    destruct (initRobust_form _ _ E5) as [E5' W5]. split; auto. rewrite E5'. cbn. reflexivity. }
  destruct F5 as [F5 W5].
  assert (I6 : AInv y5 /\ a_state y5 = INITIALIZED).
  { destruct (p_accel (a_params y4)) eqn:Ha.
    - rewrite F5 in Ha. cbn in Ha.
      unfold ag_initializeAcceleration in E6. dres E6.
      assert (Hi : is_init y4 = true) by (rewrite F5; reflexivity). rewrite Hi in E6. okinv E6.
      assert (G := weq_gsame _ _ (iv_pg _ I) W5). destruct G as [W Q1 Q2 Q3 Q4 _ _ _ Q5 Q6 Q7].
      rewrite F5. split; [|reflexivity]. cbn in *.
      destruct I. constructor; cbn; unfold num_poses in *; cbn; rewrite ?Q1, ?Q2, ?Q3, ?Q4, ?Q6; auto; try congruence; try discriminate.
      + intros X EX. injection EX as <-. split; auto. discriminate.
      + intros T1 EX. rewrite ET in EX. injection EX as <-. split; auto. discriminate.
      + split; try exact I. intros; discriminate.
      + split; try exact I. intros; discriminate.
    - okinv E6. rewrite F5 in Ha. cbn in Ha. specialize (I1 Ha). rewrite F5. split; [|reflexivity].
      apply inv_pg; [misc I1|]. cbn. apply weq_gsame; auto. apply I. }
  destruct I6 as [I6 S6].
  destruct (a_thread a).
  - split; [eapply startLoop_inv; eauto|]. apply startLoop_form in E. destruct E as [-> _]. auto.
  - okinv E. auto.
Qed.

(** What a (re)initialisation in the global frame leaves alone. *)
Lemma initGlobal_form a TW a' : ag_initializeInGlobalFrame a TW = Ok a' ->
  a_id a' = a_id a /\ a_params a' = a_params a /\ a_status a' = a_status a /\ weq (a_pg a) (a_pg a') /\
  a_inst a' = a_inst a /\ a_iter a' = a_iter a /\ a_lwu a' = a_lwu a /\ a_inner a' = a_inner a /\
  a_wuc a' = a_wuc a /\ a_trc a' = a_trc a /\ a_team a' = a_team a /\ a_active a' = a_active a /\
  a_pub a' = a_pub a /\ a_pubasync a' = a_pubasync a /\ a_TLocal a' = a_TLocal a /\ a_YLift a' = a_YLift a /\
  a_anchor a' = a_anchor a /\ a_ndict a' = [] /\ a_naux a' = [] /\ a_thread a' = a_thread a /\ a_state a' = INITIALIZED.
Proof.
  intros E. unfold ag_initializeInGlobalFrame in E. rewrite endLoop_form in E.
  destruct (a_YLift a) as [YL|] eqn:EY; [|discriminate]. cbn [bind] in E. dres E.
  set (a1 := sa_state _ INITIALIZED) in E5.
  assert (F5 : y4 = sa_pg (sa_rc a1 (a_rc y4)) (a_pg y4) /\ weq (a_pg a1) (a_pg y4)).
  { destruct (robust a1); [|injection E5 as <-; split; [apply eta_pg_rc|apply weq_refl]].
    destruct (initRobust_form _ _ E5) as [E5' W5]. split; auto. rewrite E5'. cbn. reflexivity. }
  destruct F5 as [F5 W5].
  assert (F6 : exists gm al Y V XP, y5 = sa_XPrev (sa_V (sa_Y (sa_alpha (sa_gamma y4 gm) al) Y) V) XP).
  { destruct (p_accel (a_params y4)); [apply initAccel_form; auto|]. injection E6 as <-. do 5 eexists. apply eta_acc. }
  destruct F6 as (gm & al & Y & V & XP & F6).
  assert (F7 : a' = sa_thread y5 (a_thread a)).
  { destruct (a_thread a) eqn:Et; [apply startLoop_form in E; tauto|]. injection E as <-. rewrite F6, F5. reflexivity. }
  rewrite F7, F6, F5. cbn. repeat split; auto; apply W5.
Qed.

(** *** Iterations *)
Lemma updateX_form opt a b acc a' s : ag_updateX opt a b acc = Ok (a', s) -> AInv a ->
  (acc = true -> p_accel (a_params a) = true) -> a_state a = INITIALIZED ->
  (exists X' g', a' = sa_X (sa_pg a g') X' /\ gsame (a_pg a) g' /\
     arr (p_r (a_params a)) (p_d (a_params a)) (num_poses a) X').
Proof.
  intros E I Hacc Hs. unfold ag_updateX in E.
  destruct (iv_X _ I ltac:(congruence)) as [_ HX].
  destruct b; cbn [negb] in E.
  2:{ okinv E. destruct acc.
      - exists (a_Y a), (a_pg a). split; [destruct a; reflexivity|]. split; [apply gsame_refl, I|].
        apply (iv_acc _ I); auto.
      - exists (a_X a), (a_pg a). split; [destruct a; reflexivity|]. split; [apply gsame_refl, I|auto]. }
  dres E. rename p into g1, b into built.
  assert (W0 : pg_wf (setNeighborPoses (a_pg a) (if acc then a_naux a else a_ndict a))).
  { apply (pg_step_wf (a_pg a) (PSetNbr (if acc then a_naux a else a_ndict a))); [|apply I|reflexivity].
    cbn. destruct acc; apply I. }
  assert (G1 : gsame (a_pg a) g1).
  { pose proof (constructData_wf _ _ _ W0 E0) as W1. pose proof (constructData_core _ _ _ E0) as C1.
    destruct (core_gsame _ _ W0 W1 C1). constructor; auto. }
  destruct built; cbn [negb] in E.
  2:{ okinv E. exists (a_X a), g1. split; [destruct a; reflexivity|auto]. }
  dres E. rename o into pr. okinv E. cbn in E1.
  destruct (pa_setData_arr _ _ _ _ _ _ HX E1) as [HX' _].
  exists y, (set_pg_precon g1 pr). split; [reflexivity|]. split; auto.
  destruct G1. constructor; auto. apply set_precon_wf; auto.
Qed.

Lemma updateX_inv opt a b acc a' s : ag_updateX opt a b acc = Ok (a', s) -> AInv a ->
  (acc = true -> p_accel (a_params a) = true) -> a_state a = INITIALIZED -> AInv a'.
Proof.
  intros E I Hacc Hs. destruct (updateX_form _ _ _ _ _ _ E I Hacc Hs) as (X' & g' & -> & G & HX).
  pose proof (inv_pg _ _ I G) as I'. destruct (iv_X _ I ltac:(congruence)) as [Hn _].
  destruct G. destruct I'. constructor; auto. intros _. cbn. unfold num_poses; cbn.
  split; [congruence|]. rewrite gs_n0. exact HX.
Qed.

(** The manifold projection returns a matrix of the right size (it is CHECKed by setData). *)
Lemma updateY_form x a a' : ag_updateY x a = Ok a' -> AInv a ->
  exists Y, a' = sa_Y a Y /\ arr (p_r (a_params a)) (p_d (a_params a)) (num_poses a) Y /\ p_accel (a_params a) = true /\ a_state a = INITIALIZED.
Proof.
  intros E I. unfold ag_updateY in E. dres E. okinv E. apply is_init_eq in C0.
  destruct (iv_acc _ I C C0) as (HY & _ & _).
  destruct (pa_setData_arr _ _ _ _ _ _ HY E1) as [HY' _]. exists y0. auto.
Qed.
Lemma updateV_form x a a' : ag_updateV x a = Ok a' -> AInv a ->
  exists V, a' = sa_V a V /\ arr (p_r (a_params a)) (p_d (a_params a)) (num_poses a) V /\ p_accel (a_params a) = true /\ a_state a = INITIALIZED.
Proof.
  intros E I. unfold ag_updateV in E. dres E. okinv E. apply is_init_eq in C0.
  destruct (iv_acc _ I C C0) as (_ & HY & _).
  destruct (pa_setData_arr _ _ _ _ _ _ HY E1) as [HY' _]. exists y0. auto.
Qed.

Lemma restart_inv opt a b a' : ag_restart opt a b = Ok a' -> AInv a -> AInv a'.
Proof.
  intros E I. unfold ag_restart in E.
  destruct (p_accel (a_params a) && is_init a) eqn:Hc; [|okinv E; auto].
  apply andb_true_iff in Hc. destruct Hc as [Ha Hi]. apply is_init_eq in Hi.
  dres E. okinv E.
  assert (I1 : AInv (sa_X a (a_XPrev a))).
  { destruct (iv_acc _ I Ha Hi) as (_ & _ & HP). destruct I. constructor; auto. intros Hs. cbn. split; [apply iv_X0; auto|auto]. }
  assert (I2 := updateX_inv _ _ _ _ _ _ E0 I1 ltac:(discriminate) Hi).
  destruct (updateX_form _ _ _ _ _ _ E0 I1 ltac:(discriminate) Hi) as (X' & g' & -> & G & HX).
  destruct I2. constructor; auto. intros Ha' Hs'. cbn in *. destruct (iv_acc0 Ha' Hs') as (_ & _ & HP).
  destruct (iv_X0 ltac:(congruence)). auto.
Qed.

Lemma updateStatus_form a b a' : ag_updateStatus a b = Ok a' -> exists st, a' = sa_status a st.
Proof. unfold ag_updateStatus. intros E. dres E. okinv E. eauto. Qed.

(** Fields an iteration can change. *)
Definition iter_frame a a' : Prop :=
  a_id a' = a_id a /\ a_params a' = a_params a /\ a_state a' = a_state a /\ a_rc a' = a_rc a /\
  a_inst a' = a_inst a /\ a_lwu a' = a_lwu a /\ a_wuc a' = a_wuc a /\ a_trc a' = a_trc a /\
  a_team a' = a_team a /\ a_active a' = a_active a /\ a_XInit a' = a_XInit a /\ a_TLocal a' = a_TLocal a /\
  a_YLift a' = a_YLift a /\ a_anchor a' = a_anchor a /\ a_ndict a' = a_ndict a /\ a_naux a' = a_naux a /\
  a_thread a' = a_thread a /\ gsame (a_pg a) (a_pg a').
Lemma frame_refl a : AInv a -> iter_frame a a.
Proof. intros I. unfold iter_frame. sp; auto. apply gsame_refl, I. Qed.
Lemma frame_trans a b c : iter_frame a b -> iter_frame b c -> iter_frame a c.
Proof.
  unfold iter_frame. intros A1 B1. decompose [and] A1. decompose [and] B1.
  sp; try congruence.
  match goal with G1 : gsame (a_pg a) (a_pg b), G2 : gsame (a_pg b) (a_pg c) |- _ => apply (gsame_trans _ _ _ G1 G2) end.
Qed.

Lemma updateX_frame opt a b acc a' s : ag_updateX opt a b acc = Ok (a', s) -> AInv a ->
  (acc = true -> p_accel (a_params a) = true) -> a_state a = INITIALIZED ->
  iter_frame a a' /\ a_iter a' = a_iter a /\ a_inner a' = a_inner a.
Proof.
  intros E I Hacc Hs. destruct (updateX_form _ _ _ _ _ _ E I Hacc Hs) as (X' & g' & -> & G & HX).
  unfold iter_frame; cbn. sp; auto.
Qed.
Lemma restart_frame opt a b a' : ag_restart opt a b = Ok a' -> AInv a ->
  iter_frame a a' /\ a_iter a' = a_iter a /\ a_inner a' = a_inner a.
Proof.
  intros E I. unfold ag_restart in E.
  destruct (p_accel (a_params a) && is_init a) eqn:Hc; [|okinv E; split; [apply frame_refl|]; auto].
  apply andb_true_iff in Hc. destruct Hc as [Ha Hi]. apply is_init_eq in Hi.
  dres E. okinv E.
  assert (I1 : AInv (sa_X a (a_XPrev a))).
  { destruct (iv_acc _ I Ha Hi) as (_ & _ & HP). destruct I. constructor; auto. intros Hs. cbn. split; [apply iv_X0; auto|auto]. }
  destruct (updateX_frame _ _ _ _ _ _ E0 I1 ltac:(discriminate) Hi) as (F & F1 & F2).
  unfold iter_frame in *. cbn in *. auto.
Qed.

Lemma iterate_all x opt a b a' s : ag_iterate x opt a b = Ok (a', s) -> AInv a ->
  AInv a' /\ iter_frame a a' /\ a_iter a' = u32 (a_iter a + 1) /\
  a_inner a' = (if robust a then a_inner a + 1 else a_inner a)%Z.
Proof.
  intros E I. unfold ag_iterate in E. dres E. rename y into a1, E0 into E1.
  assert (F1 : a1 = sa_inner (sa_iter a (u32 (a_iter a + 1))) (if robust a then a_inner a + 1 else a_inner a)%Z).
  { change (robust (sa_iter a (u32 (a_iter a + 1)))) with (robust a) in E1. destruct (robust a); dres E1; okinv E1.
    - unfold int_incr in E0. dres E0. okinv E0. reflexivity.
    - destruct a; reflexivity. }
  assert (I1 : AInv a1) by (rewrite F1; misc I).
  assert (R1 : iter_frame a a1 /\ a_iter a1 = u32 (a_iter a + 1) /\ a_inner a1 = (if robust a then a_inner a + 1 else a_inner a)%Z).
  { rewrite F1. split; [|cbn; auto]. unfold iter_frame; cbn. sp; auto. apply gsame_refl, I. }
  clear F1 E1.
  destruct (is_init a1) eqn:Hi.
  2:{ okinv E. tauto. }
  apply is_init_eq in Hi. dres E. okinv E.
  assert (I2 : AInv (sa_XPrev a1 (a_X a1))).
  { destruct (iv_X _ I1 ltac:(congruence)). destruct I1. constructor; auto. intros Ha Hs. cbn in *. destruct (iv_acc0 Ha Hs) as (Q1 & Q2 & Q3). auto. }
  assert (R2 : iter_frame a1 (sa_XPrev a1 (a_X a1)) /\ a_iter (sa_XPrev a1 (a_X a1)) = a_iter a1 /\ a_inner (sa_XPrev a1 (a_X a1)) = a_inner a1).
  { split; [|auto]. apply frame_refl in I1. exact I1. }
  assert (R3 : AInv a0 /\ iter_frame a1 a0 /\ a_iter a0 = a_iter a1 /\ a_inner a0 = a_inner a1).
  { destruct (p_accel (a_params (sa_XPrev a1 (a_X a1)))) eqn:Ha.
    - dres E0. okinv E0. rename a2 into b4, y4 into again, E1 into EST, E2 into E1, E3 into E2, E4 into E3, E5 into E4, E6 into E5, E7 into E6.
      unfold ag_updateGamma in E. dres E. okinv E. unfold ag_updateAlpha in E1. dres E1. okinv E1.
      assert (I3 : AInv (sa_alpha (sa_gamma (sa_XPrev a1 (a_X a1)) (next_gamma (p_numRobots (a_params a1)) (a_gamma a1)))
         (next_alpha (p_numRobots (a_params a1)) (next_gamma (p_numRobots (a_params a1)) (a_gamma a1))))) by (misc I2).
      destruct (updateY_form _ _ _ E2 I3) as (Y & -> & HY & _ & _).
      match type of E3 with ag_updateX _ ?A _ _ = _ => set (a4 := A) in * end.
      assert (I4 : AInv a4).
      { unfold a4. destruct I3. constructor; auto. intros Ha' Hs'. cbn in *. destruct (iv_acc0 Ha' Hs') as (Q1 & Q2 & Q3). auto. }
      assert (R4 : iter_frame a1 a4 /\ a_iter a4 = a_iter a1 /\ a_inner a4 = a_inner a1).
      { split; [|auto]. apply frame_refl in I1. exact I1. }
      assert (I5 := updateX_inv _ _ _ _ _ _ E3 I4 (fun _ => Ha) Hi).
      destruct (updateX_frame _ _ _ _ _ _ E3 I4 (fun _ => Ha) Hi) as (F5 & F5a & F5b).
      destruct (updateV_form _ _ _ E4 I5) as (V & -> & HV & _ & _).
      assert (I6 : AInv (sa_V b4 V)).
      { destruct I5. constructor; auto. intros Ha' Hs'. cbn in *. destruct (iv_acc0 Ha' Hs') as (Q1 & Q2 & Q3). auto. }
      assert (F6 : iter_frame a1 (sa_V b4 V)).
      { eapply frame_trans; [apply R4|]. exact F5. }
      destruct again.
      + destruct (restart_frame _ _ _ _ E6 I6) as (F7 & F7a & F7b). assert (I7 := restart_inv _ _ _ _ E6 I6).
        split; auto. split; [eapply frame_trans; eauto|]. cbn in *. destruct R4 as (_ & R4a & R4b). split; congruence.
      + okinv E6. split; [exact I6|]. split; [exact F6|]. cbn in *. destruct R4 as (_ & R4a & R4b). split; congruence.
    - split; [eapply updateX_inv; eauto; discriminate|].
      destruct (updateX_frame _ _ _ _ _ _ E0 I2 ltac:(discriminate) Hi) as (F5 & F5a & F5b).
      split; [eapply frame_trans; [apply R2|auto]|]. cbn in *. auto. }
  destruct R3 as (I3 & F3 & F3a & F3b). destruct R1 as (F1 & F1a & F1b).
  assert (R5 : AInv y /\ iter_frame a1 y /\ a_iter y = a_iter a1 /\ a_inner y = a_inner a1).
  { destruct b; [|okinv E1; auto]. apply updateStatus_form in E1. destruct E1 as [st ->].
    split; [misc I3|]. split; [exact F3|cbn; auto]. }
  destruct R5 as (I5 & F5 & F5a & F5b).
  assert (F := frame_trans _ _ _ F1 F5).
  destruct (b || p_accel (a_params y)).
  - split; [misc I5|]. split; [exact F|cbn; split; congruence].
  - split; [misc I5|]. split; [exact F|cbn; split; congruence].
Qed.
End A.
