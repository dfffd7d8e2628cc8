(** The published status (C55). *)
From Coq Require Import List NArith ZArith Bool Arith Lia Reals Lra Psatz.
From Verif Require Import Base SMap Num RSum ModelTypes ModelPoseGraph ModelProblem ModelRobust ModelPoses ModelSolver ModelAgent
  SpecPoseGraph SpecAgent SpecCost SpecStatus ProofsPoseGraph ProofsPGMain ProofsAgent ProofsAgent2 ProofsAgent3 ProofsAgent4 ProofsAgent5 ProofsAgent6.
Import ListNotations.
Local Open Scope res_scope.

Section A.
Context {S : Type} `{HS : Num S}.
Implicit Types (a : Agent S) (x : Ext S) (e : event S).

Lemma updateX_status opt a b acc a' s : ag_updateX opt a b acc = Ok (a', s) ->
  a_status a' = a_status a /\ a_XPrev a' = a_XPrev a /\ a_params a' = a_params a /\ a_id a' = a_id a /\ a_inst a' = a_inst a /\ a_wuc a' = a_wuc a /\ a_iter a' = a_iter a /\ a_state a' = a_state a.
Proof.
  unfold ag_updateX. destruct b; cbn [negb]; intros E.
  - dres E. destruct b; cbn [negb] in E.
    + dres E. injection E as <- <-. cbn. auto 10.
    + injection E as <- <-. cbn. auto 10.
  - injection E as <- <-. destruct acc; cbn; auto 10.
Qed.
Lemma restart_status opt a b a' : ag_restart opt a b = Ok a' ->
  a_status a' = a_status a /\ a_XPrev a' = a_XPrev a /\ a_params a' = a_params a /\ a_id a' = a_id a /\ a_inst a' = a_inst a /\ a_wuc a' = a_wuc a /\ a_iter a' = a_iter a /\ a_state a' = a_state a.
Proof.
  unfold ag_restart. destruct (p_accel (a_params a) && is_init a); intros E; [|injection E as <-; auto 10].
  dres E. injection E as <-. apply updateX_status in E0. cbn in *. exact E0.
Qed.

Definition kept_status a a' : Prop :=
  a_status a' = a_status a /\ a_params a' = a_params a /\ a_id a' = a_id a /\ a_inst a' = a_inst a /\ a_wuc a' = a_wuc a /\ a_state a' = a_state a.
Lemma base_kept a i j X : kept_status a (sa_XPrev (sa_inner (sa_iter a i) j) X).
Proof. unfold kept_status. sp; reflexivity. Qed.
Lemma accel_kept a i j X g1 g2 Y : kept_status a (sa_Y (sa_alpha (sa_gamma (sa_XPrev (sa_inner (sa_iter a i) j) X) g1) g2) Y).
Proof. unfold kept_status. sp; reflexivity. Qed.
Lemma kept_trans a1 a2 a3 : kept_status a1 a2 -> kept_status a2 a3 -> kept_status a1 a3.
Proof. unfold kept_status. intros K1 K2. decompose [and] K1. decompose [and] K2. sp; congruence. Qed.
Lemma updateX_kept opt a b acc a' s : ag_updateX opt a b acc = Ok (a', s) -> kept_status a a' /\ a_XPrev a' = a_XPrev a /\ a_iter a' = a_iter a.
Proof. intros E. apply updateX_status in E. unfold kept_status. tauto. Qed.
Lemma restart_kept opt a b a' : ag_restart opt a b = Ok a' -> kept_status a a' /\ a_XPrev a' = a_XPrev a /\ a_iter a' = a_iter a.
Proof. intros E. apply restart_status in E. unfold kept_status. tauto. Qed.
Lemma updateY_kept x a a' : ag_updateY x a = Ok a' -> exists Y, a' = sa_Y a Y.
Proof. unfold ag_updateY. intros E. dres E. injection E as <-. eauto. Qed.
Lemma updateV_kept x a a' : ag_updateV x a = Ok a' -> exists V, a' = sa_V a V.
Proof. unfold ag_updateV. intros E. dres E. injection E as <-. eauto. Qed.

Lemma iterate_mid x opt a b a' s : ag_iterate x opt a b = Ok (a', s) -> is_init a = true -> exists a2,
  kept_status a a2 /\ a_XPrev a2 = a_X a /\ a_iter a2 = u32 (a_iter a + 1) /\ a_X a' = a_X a2 /\ a_pg a' = a_pg a2 /\
  exists a3, a_status a' = a_status a3 /\ if b then ag_updateStatus a2 s = Ok a3 else a3 = a2.
Proof.
  intros E Hi. pose proof (iterate_split _ _ _ _ _ _ E) as Q. cbv zeta in Q. rewrite Hi in Q. destruct Q as (a2 & a3 & Q1 & Q2 & F). exists a2.
  assert (R : kept_status a a2 /\ a_XPrev a2 = a_X a /\ a_iter a2 = u32 (a_iter a + 1)).
  { destruct (p_accel (a_params a)).
    - destruct Q1 as (aY & aX & aV & again & QY & QX & QV & _ & QR).
      destruct (updateY_kept _ _ _ QY) as [Y FY]. destruct (updateX_kept _ _ _ _ _ _ QX) as (KX & PX & IX). destruct (updateV_kept _ _ _ QV) as [V FV].
      assert (KV : kept_status aX aV /\ a_XPrev aV = a_XPrev aX /\ a_iter aV = a_iter aX) by (rewrite FV; unfold kept_status; sp; reflexivity).
      assert (KY : kept_status a aY) by (rewrite FY; apply accel_kept).
      assert (PY : a_XPrev aY = a_X a) by (rewrite FY; reflexivity). assert (IY : a_iter aY = u32 (a_iter a + 1)) by (rewrite FY; reflexivity).
      destruct KV as (KV & PV & IV).
      assert (K : kept_status aV a2 /\ a_XPrev a2 = a_XPrev aV /\ a_iter a2 = a_iter aV).
      { destruct again; [apply restart_kept in QR; exact QR|injection QR as <-; unfold kept_status; sp; reflexivity]. }
      destruct K as (K & P & IT). split; [|split; congruence].
      apply (kept_trans _ aY); auto. apply (kept_trans _ aX); auto. apply (kept_trans _ aV); auto.
    - apply updateX_kept in Q1. destruct Q1 as (K & P & IT). split; [eapply kept_trans; [apply base_kept|exact K]|]. rewrite P, IT. split; reflexivity. }
  destruct R as (R1 & R2 & R3). do 3 (split; [assumption|]).
  assert (F3 : a_X a3 = a_X a2 /\ a_pg a3 = a_pg a2).
  { destruct b; [|subst a3; auto]. destruct (updateStatus_form _ _ _ Q2) as (st & ->). auto. }
  assert (F4 : a_X a' = a_X a3 /\ a_pg a' = a_pg a3 /\ a_status a' = a_status a3).
  { rewrite F. destruct (b || p_accel (a_params a3)); sp; reflexivity. }
  destruct F3 as [F31 F32]. destruct F4 as (F41 & F42 & F43). split; [congruence|]. split; [congruence|]. exists a3. auto.
Qed.

Lemma robust_tol a : (if robust a && (a_wuc a =? 0)%Z then nofZ 5 else p_reltol (a_params a)) = tolerance (a_params a) (a_wuc a).
Proof. unfold robust, tolerance. destruct (costType (p_robust (a_params a))); reflexivity. Qed.

Lemma iterate_status x opt a a' s : ag_iterate x opt a true = Ok (a', s) -> is_init a = true ->
  exists change st, maxTranslationDistance (a_X a') (a_X a) = Ok change /\ statistics (a_pg a') = Ok st /\
    st_id (a_status a') = a_id a /\ st_state (a_status a') = INITIALIZED /\ st_inst (a_status a') = a_inst a /\ st_iter (a_status a') = u32 (a_iter a + 1) /\
    st_change (a_status a') = change /\
    (st_ready (a_status a') = true <-> s = true /\ nltb (tolerance (a_params a) (a_wuc a)) change = false /\ decided (a_params a) st).
Proof.
  intros E Hi. destruct (iterate_mid _ _ _ _ _ _ E Hi) as (a2 & (R1 & R3 & R4 & R5 & R6 & R8) & R2 & R7 & R9 & R10 & a3 & F3 & Q).
  destruct (updateStatus_exact _ _ _ Q) as (ch & st & Q1 & Q2 & F).
  assert (F' : a_status a' = mkStatus (a_id a2) (a_state a2) (a_inst a2) (a_iter a2) (ready_of a2 s ch st) ch).
  { rewrite F3, F. reflexivity. }
  exists ch, st. rewrite R9, R10, <- R2. split; auto. split; auto. rewrite F'. cbn [st_id st_state st_inst st_iter st_change st_ready].
  apply is_init_eq in Hi. rewrite R4, R5, R7, R8. do 5 (split; auto).
  unfold ready_of. rewrite robust_tol, R3, R6. rewrite !andb_true_iff, !negb_true_iff.
  unfold decided, ratio_low. destruct (Nat.eqb_spec (total_lc st) 0); split; intros K; decompose [and or] K; auto; try contradiction; auto.
Qed.

Lemma iterate_no_status x opt a b a' s : ag_iterate x opt a b = Ok (a', s) -> is_init a && b = false -> a_status a' = a_status a.
Proof.
  intros E Hb. destruct (is_init a) eqn:Hi.
  - cbn in Hb. subst b. destruct (iterate_mid _ _ _ _ _ _ E Hi) as (a2 & (R1 & _) & _ & _ & _ & _ & a3 & F3 & Q). congruence.
  - pose proof (iterate_split _ _ _ _ _ _ E) as Q. cbv zeta in Q. rewrite Hi in Q. destruct Q as [-> _]. reflexivity.
Qed.

(** Nothing else touches the flag and the change. *)
Lemma step_status x a o a' : AInv a -> aop_ok o -> ag_step x a o = Ok a' -> optimises (mkEv a o a') = false -> renews (mkEv a o a') = false ->
  st_ready (a_status a') = st_ready (a_status a) /\ st_change (a_status a') = st_change (a_status a).
Proof.
  intros I Ho E HO HR. unfold optimises, renews, is_reset, is_reweight, initialised in *. cbn [e_op e_pre] in *.
  cut (a_status a' = a_status a \/ o = AGetStatus); [intros [K|K]; [rewrite K; auto|clear - E K; subst o; cbn [ag_step] in E; okinv E; auto]|].
  destruct o; cbn [ag_step aop_ok] in *; try (right; reflexivity); left.
  - unfold ag_setX in E. dres E.
    match type of E with (if _ then ag_initializeAcceleration ?A else _) = _ => set (a1 := A) in * end.
    destruct (p_accel (a_params a1)); [|injection E as <-; reflexivity]. destruct (initAccel_form _ _ E) as (gm & al & Y & V & XP & ->). reflexivity.
  - destruct (setXInit_form _ _ E) as (X1 & _ & -> & _). reflexivity.
  - destruct (addA_form _ _ _ E) as [[_ ->]|(_ & g & _ & ->)]; reflexivity.
  - destruct (setMeasA_form _ _ _ _ _ E) as (_ & [[_ ->]|(_ & g0 & g & _ & _ & ->)]); reflexivity.
  - destruct (initialize_cases _ _ _ _ _ E I) as [->|[[-> _]|Q]]; try reflexivity.
    destruct Q as (_ & _ & _ & _ & a0 & T0 & T1 & a1 & W & F0 & _ & _ & _ & _ & _ & _ & (X & F1) & Q).
    destruct Q as [(b & ->)|(J & a2 & b & _ & E2 & ->)].
    + rewrite F1, F0. reflexivity.
    + pose proof (initGlobal_form _ _ _ E2) as F2. decompose [and] F2. cbn. etransitivity; [eassumption|]. rewrite F1, F0; reflexivity.
  - pose proof (initGlobal_form _ _ _ E) as F2. decompose [and] F2. auto.
  - dres E. okinv E. eapply iterate_no_status; eauto.
  - destruct (a_thread a) eqn:Et.
    + dres E. okinv E. eapply iterate_no_status; eauto.
    + injection E as <-. reflexivity.
  - discriminate.
  - apply startLoop_form in E. destruct E as [-> _]. reflexivity.
  - injection E as <-. rewrite endLoop_form. reflexivity.
  - apply restart_status in E. apply E.
  - destruct (updNbr_form _ _ _ _ _ E I) as (_ & [[_ ->]|(_ & a1 & _ & R & _ & Q)]); [reflexivity|].
    assert (Q1 : a_status a1 = a_status a).
    { destruct R as [->|(_ & T & _ & ET)]; [reflexivity|]. pose proof (initGlobal_form _ _ _ ET) as F2. decompose [and] F2. auto. }
    destruct Q as [[_ ->]|(_ & c & _ & ->)]; exact Q1.
  - destruct (updAux_form _ _ _ _ E) as (_ & _ & [[_ ->]|(_ & c & _ & ->)]); reflexivity.
  - injection E as <-. reflexivity.
  - unfold ag_clearActiveNeighborPoses in E. dres E. okinv E. reflexivity.
  - unfold ag_setLiftingMatrix in E. dres E. okinv E. reflexivity.
  - unfold ag_setGlobalAnchor in E. dres E. okinv E. reflexivity.
  - injection E as <-. reflexivity.
  - destruct (setActive_form _ _ _ _ I E) as [[L ->]|(L & -> & _)]; reflexivity.
  - destruct (updWeights_cases _ _ E I) as [[Hi ->]|(Hi & ps & a1 & Q)]; [reflexivity|]. unfold is_init in Hi. cbn in HR. congruence.
  - dres E. okinv E. apply setWeight_form in E0. destruct E0 as [-> _]. reflexivity.
  - apply initRobust_form in E. destruct E as [-> _]. reflexivity.
  - dres E. okinv E. destruct (anchorFirst_form _ _ _ E0 I) as [-> _]. reflexivity.
  - dres E. okinv E. destruct (anchorWith_form _ _ _ _ E0 I) as [-> _]. reflexivity.
Qed.
Lemma step_renew x a o a' : AInv a -> ag_step x a o = Ok a' -> renews (mkEv a o a') = true ->
  st_ready (a_status a') = false /\ st_change (a_status a') = n0.
Proof.
  intros I E HR. unfold renews, is_reset, is_reweight, initialised in HR. cbn [e_op e_pre] in HR. destruct o; try discriminate HR; cbn [ag_step] in E.
  - apply reset_form in E. subst a'. auto.
  - destruct (updWeights_cases _ _ E I) as [[Hi ->]|(Hi & ps & a1 & Q)]; [unfold is_init in Hi; cbn in HR; congruence|].
    decompose [and] Q. match goal with K : a_status a' = zero_status _ |- _ => rewrite K end. auto.
Qed.
Lemma step_opt x a o a' : ag_step x a o = Ok a' -> optimises (mkEv a o a') = true ->
  exists opt s, ag_iterate x opt a true = Ok (a', s) /\ is_init a = true.
Proof.
  unfold optimises, initialised. cbn [e_op e_pre]. intros E HO. apply andb_true_iff in HO. destruct HO as [Hi HO].
  destruct o; try discriminate HO; cbn [ag_step] in E.
  - subst b. dres E. okinv E. eauto.
  - rewrite HO in E. dres E. okinv E. eauto.
Qed.
Lemma opt_not_renew e : optimises e = true -> renews e = false.
Proof. unfold optimises, renews, is_reset, is_reweight. destruct (e_op e); cbn; auto; rewrite andb_false_r; discriminate. Qed.

(** Ready: the last optimising step since the last reset or weight update was a
    success with a small change. *)
Definition ready_from x p (es : list (event S)) a : Prop := forall (HRy : st_ready (a_status a) = true),
  exists es1 e es2 opt, since renews es = es1 ++ e :: es2 /\ optimises e = true /\ existsb optimises es2 = false /\
    ag_iterate x opt (e_pre e) true = Ok (e_post e, true) /\
    maxTranslationDistance (a_X (e_post e)) (a_X (e_pre e)) = Ok (st_change (a_status a)) /\
    nltb (tolerance p (a_wuc (e_pre e))) (st_change (a_status a)) = false /\
    exists st, statistics (a_pg (e_post e)) = Ok st /\ decided p st.

Lemma ready_hist x id p os a : areach x id p os a -> ready_from x p (history x id p os) a.
Proof.
  apply hist_ind.
  - intros b E HR. destruct (new_form _ _ _ _ E) as (X & g & YL & _ & _ & F & _). subst b. discriminate.
  - intros os' b o b' R I Ho E IH HR.
    assert (Hp : a_params b = p). { pose proof (hist_all _ _ _ _ _ R) as F. apply F. }
    rewrite since_snoc. destruct (renews (mkEv b o b')) eqn:Hr.
    { destruct (step_renew _ _ _ _ I E Hr) as [K _]. congruence. }
    destruct (optimises (mkEv b o b')) eqn:Hop.
    + destruct (step_opt _ _ _ _ E Hop) as (opt & s & EI & Hi).
      destruct (iterate_status _ _ _ _ _ EI Hi) as (ch & st & C1 & C2 & _ & _ & _ & _ & C3 & C4). apply C4 in HR. destruct HR as (-> & C5 & C6).
      exists (since renews (history x id p os')), (mkEv b o b'), [], opt. cbn [e_pre e_post]. rewrite Hp in *.
      sp; auto. congruence. congruence. eauto.
    + destruct (step_status _ _ _ _ I Ho E Hop Hr) as [K1 K2]. rewrite K1 in HR. destruct (IH HR) as (es1 & e & es2 & opt & C1 & C2 & C3 & C4 & C5 & C6 & C7).
      exists es1, e, (es2 ++ [mkEv b o b']), opt. rewrite C1, K2, existsb_app, C3. cbn [existsb]. rewrite Hop. rewrite <- app_assoc. cbn [app]. sp; auto.
Qed.
Theorem c55_status x opt a a' s : ag_iterate x opt a true = Ok (a', s) -> a_state a = INITIALIZED ->
  exists change st, maxTranslationDistance (a_X a') (a_X a) = Ok change /\ statistics (a_pg a') = Ok st /\
    st_id (a_status a') = a_id a /\ st_state (a_status a') = INITIALIZED /\ st_inst (a_status a') = a_inst a /\ st_iter (a_status a') = u32 (a_iter a + 1) /\
    st_change (a_status a') = change /\
    (st_ready (a_status a') = true <-> s = true /\ nltb (tolerance (a_params a) (a_wuc a)) change = false /\ decided (a_params a) st).
Proof. intros E K. eapply iterate_status; eauto. unfold is_init. rewrite K. reflexivity. Qed.
Theorem c55_no_status x opt a b a' s : ag_iterate x opt a b = Ok (a', s) -> a_state a <> INITIALIZED \/ b = false -> a_status a' = a_status a.
Proof.
  intros E K. eapply iterate_no_status; eauto. destruct K as [K| ->]; [|apply andb_false_r].
  destruct (is_init a) eqn:Q; auto. apply is_init_eq in Q. contradiction.
Qed.
End A.

(** *** Distances *)
Local Open Scope R_scope.
Lemma rsum_abs_cs n (f g : nat -> R) : rsum n (fun i => f i * g i) <= sqrt (rsum n (fun i => sq (f i))) * sqrt (rsum n (fun i => sq (g i))).
Proof.
  set (A := rsum n (fun i => sq (f i))). set (B := rsum n (fun i => sq (g i))). set (C := rsum n (fun i => f i * g i)).
  assert (PA : 0 <= A) by (apply rsum_nonneg; intros; apply Rle_0_sqr). assert (PB : 0 <= B) by (apply rsum_nonneg; intros; apply Rle_0_sqr).
  assert (Q : forall s, 0 <= A + s * (2 * C) + s * s * B).
  { intros s. unfold A, B, C. rewrite <- !rsum_scal, <- !rsum_add. apply rsum_nonneg. intros i _. unfold sq. pose proof (Rle_0_sqr (f i + s * g i)) as K. unfold Rsqr in K. lra. }
  rewrite <- sqrt_mult by auto. destruct (Rle_dec C 0) as [HC|HC]; [pose proof (sqrt_pos (A * B)); lra|].
  rewrite <- (sqrt_square C) by lra. apply sqrt_le_1_alt.
  destruct (Req_dec B 0) as [Z|NZ].
  - pose proof (Q (- (A + 1) / (2 * C))) as K. rewrite Z in K. replace (- (A + 1) / (2 * C) * (2 * C)) with (- (A + 1)) in K by (field; lra). lra.
  - pose proof (Q (- C / B)) as K. assert (0 < B) by lra.
    replace (A + - C / B * (2 * C) + - C / B * (- C / B) * B) with ((A * B - C * C) / B) in K by (field; lra).
    apply Rmult_le_compat_r with (r := B) in K; [|lra]. replace ((A * B - C * C) / B * B) with (A * B - C * C) in K by (field; lra). lra.
Qed.
Lemma norm_triangle n (f g : nat -> R) : sqrt (rsum n (fun i => sq (f i + g i))) <= sqrt (rsum n (fun i => sq (f i))) + sqrt (rsum n (fun i => sq (g i))).
Proof.
  pose proof (rsum_abs_cs n f g) as CS. set (A := rsum n (fun i => sq (f i))) in *. set (B := rsum n (fun i => sq (g i))) in *.
  assert (PA : 0 <= A) by (apply rsum_nonneg; intros; apply Rle_0_sqr). assert (PB : 0 <= B) by (apply rsum_nonneg; intros; apply Rle_0_sqr).
  pose proof (sqrt_pos A). pose proof (sqrt_pos B).
  rewrite <- (sqrt_square (sqrt A + sqrt B)) by lra. apply sqrt_le_1_alt.
  replace (rsum n (fun i => sq (f i + g i))) with (A + 2 * rsum n (fun i => f i * g i) + B).
  2:{ unfold A, B. rewrite <- rsum_scal, <- !rsum_add. apply rsum_ext. intros. unfold sq. ring. }
  replace ((sqrt A + sqrt B) * (sqrt A + sqrt B)) with (sqrt A * sqrt A + 2 * (sqrt A * sqrt B) + sqrt B * sqrt B) by ring.
  rewrite !sqrt_sqrt by auto. lra.
Qed.

Section D.
Variables (r d n : nat).
Implicit Types (a b c : PoseArr R).
Lemma trans_dist_eq a b i : arr r d n a -> arr r d n b -> (i < n)%nat -> trans_dist a b i = Ok (tdist r d (pa_X a) (pa_X b) i).
Proof.
  intros (A1 & A2 & A3 & _) (B1 & B2 & B3 & _) Hi. unfold trans_dist, pa_trans. rewrite A1, A2, A3, B1, B2, B3.
  rewrite (proj2 (Nat.ltb_lt i n) Hi). cbn [check bind]. unfold same_size. cbn [mrows mcols mblock]. rewrite !Nat.eqb_refl. cbn [andb require].
  f_equal. unfold mnorm, mfro2, tdist. cbn [msub mblock mrows mcols mat nsqrt NumR]. f_equal. apply rsum_ext. intros k Hk.
  cbn [nsum]. unfold sq. cbn [nadd nmul nsub n0 NumR]. rewrite !Nat.add_0_r, !Nat.add_0_l. ring.
Qed.
Lemma max_fold a b : arr r d n a -> arr r d n b -> forall k, (k <= n)%nat -> exists m,
  foldM (fun s i => do x <- trans_dist a b i; Ok (nmax s x)) n0 (seq 0 k) = Ok m /\ largest k (tdist r d (pa_X a) (pa_X b)) m /\ 0 <= m.
Proof.
  intros Ha Hb. induction k as [|k IH]; intros Hk.
  - exists 0. cbn. split; auto. split; [split; [lia|auto]|lra].
  - destruct IH as (m & E & (L1 & L2) & P); [lia|]. rewrite seq_S, foldM_app, E. cbn [bind foldM Nat.add]. rewrite trans_dist_eq by (auto; lia). cbn [bind].
    eexists. split; [reflexivity|]. set (t := tdist r d (pa_X a) (pa_X b)) in *. unfold nmax. cbn [nltb NumR]. destruct (Rlt_dec m (t k)) as [Lt|Ge].
    + split; [|lra]. split; [|right; exists k; auto]. intros i Hi. destruct (Nat.eq_dec i k) as [->|Ne]; [lra|]. specialize (L1 i ltac:(lia)). lra.
    + split; [|lra]. split.
      * intros i Hi. destruct (Nat.eq_dec i k) as [->|Ne]; [lra|]. apply L1. lia.
      * destruct L2 as [->|(i & Hi & ->)]; auto. right. exists i. split; auto.
Qed.
Lemma avg_fold a b : arr r d n a -> arr r d n b -> forall k, (k <= n)%nat ->
  foldM (fun s i => do x <- trans_dist a b i; Ok (nadd s x)) n0 (seq 0 k) = Ok (rsum k (tdist r d (pa_X a) (pa_X b))).
Proof.
  intros Ha Hb. induction k as [|k IH]; intros Hk; [reflexivity|].
  rewrite seq_S, foldM_app, IH by lia. cbn [bind foldM Nat.add]. rewrite trans_dist_eq by (auto; lia). cbn [bind]. rewrite rsum_S. reflexivity.
Qed.
Theorem distances a b : arr r d n a -> arr r d n b -> exists m, maxTranslationDistance a b = Ok m /\ largest n (tdist r d (pa_X a) (pa_X b)) m /\ 0 <= m /\
  ((0 < n)%nat -> exists v, averageTranslationDistance a b = Ok v /\ INR n * v = rsum n (tdist r d (pa_X a) (pa_X b)) /\ 0 <= v <= m).
Proof.
  intros Ha Hb. destruct (max_fold a b Ha Hb n (le_n n)) as (m & E & L & P). exists m.
  pose proof Ha as (_ & A2 & A3 & _). pose proof Hb as (_ & B2 & B3 & _).
  unfold maxTranslationDistance, averageTranslationDistance. rewrite A2, A3, B2, B3, !Nat.eqb_refl. cbn [check]. split; auto. split; auto. split; auto.
  intros Hn. rewrite (avg_fold a b Ha Hb n (le_n n)). cbn [bind]. eexists. split; [reflexivity|].
  cbn [ndiv nofZ NumR]. rewrite <- INR_IZR_INZ. assert (0 < INR n) by (apply lt_0_INR; auto).
  split; [field; lra|]. assert (S0 : 0 <= rsum n (tdist r d (pa_X a) (pa_X b)) <= INR n * m).
  { split; [apply rsum_nonneg; intros; apply sqrt_pos|]. destruct L as [L _]. clear - L.
    induction n as [|k IH]; [cbn; lra|]. rewrite rsum_S, S_INR. pose proof (IH (fun i Hi => L i (Nat.lt_lt_succ_r _ _ Hi))). specialize (L k (Nat.lt_succ_diag_r k)). lra. }
  split; apply (Rmult_le_reg_l (INR n)); auto; unfold Rdiv; rewrite <- Rmult_assoc, Rinv_r_simpl_m by lra; lra.
Qed.
Lemma tdist_sym X Y i : tdist r d X Y i = tdist r d Y X i.
Proof. unfold tdist. f_equal. apply rsum_ext. intros. unfold sq. ring. Qed.
Lemma tdist_zero X Y i : tdist r d X Y i = 0 <-> forall k, (k < r)%nat -> X k (i * (d + 1) + d)%nat = Y k (i * (d + 1) + d)%nat.
Proof.
  unfold tdist. split.
  - intros E k Hk. apply sqrt_eq_0 in E; [|apply rsum_nonneg; intros; apply Rle_0_sqr].
    pose proof (rsum_nonneg_zero r _ (fun i _ => Rle_0_sqr _) E k Hk) as Z. cbn beta in Z. unfold sq in Z. apply Rsqr_0_uniq in Z. lra.
  - intros E. rewrite rsum_zero'; [apply sqrt_0|]. intros k Hk. rewrite E by auto. unfold sq. ring.
Qed.
Lemma tdist_tri X Y Z i : tdist r d X Z i <= tdist r d X Y i + tdist r d Y Z i.
Proof.
  unfold tdist. eapply Rle_trans; [|apply norm_triangle]. right. f_equal. apply rsum_ext. intros. f_equal. ring.
Qed.
Theorem max_metric a b c : arr r d n a -> arr r d n b -> arr r d n c -> exists ab ba bc ac,
  maxTranslationDistance a b = Ok ab /\ maxTranslationDistance b a = Ok ba /\ maxTranslationDistance b c = Ok bc /\ maxTranslationDistance a c = Ok ac /\
  ab = ba /\ ac <= ab + bc /\
  (ab = 0 <-> forall i k, (i < n)%nat -> (k < r)%nat -> pa_X a k (i * (d + 1) + d)%nat = pa_X b k (i * (d + 1) + d)%nat).
Proof.
  intros Ha Hb Hc.
  destruct (distances a b Ha Hb) as (ab & E1 & (L1 & M1) & P1 & _). destruct (distances b a Hb Ha) as (ba & E2 & (L2 & M2) & P2 & _).
  destruct (distances b c Hb Hc) as (bc & E3 & (L3 & M3) & P3 & _). destruct (distances a c Ha Hc) as (ac & E4 & (L4 & M4) & P4 & _).
  exists ab, ba, bc, ac. do 4 (split; auto). split; [|split; [|split]].
  - apply Rle_antisym.
    + destruct M1 as [->|(i & Hi & ->)]; auto. rewrite tdist_sym. auto.
    + destruct M2 as [->|(i & Hi & ->)]; auto. rewrite tdist_sym. auto.
  - destruct M4 as [->|(i & Hi & ->)]; [lra|]. pose proof (tdist_tri (pa_X a) (pa_X b) (pa_X c) i). specialize (L1 i Hi). specialize (L3 i Hi). lra.
  - intros Z i k Hi Hk. apply (proj1 (tdist_zero (pa_X a) (pa_X b) i)); auto. specialize (L1 i Hi). pose proof (sqrt_pos (rsum r (fun k => sq (pa_X a k (i * (d + 1) + d)%nat - pa_X b k (i * (d + 1) + d)%nat)))).
    unfold tdist in *. lra.
  - intros Z. destruct M1 as [->|(i & Hi & ->)]; auto. apply tdist_zero. intros; apply Z; auto.
Qed.
End D.
Theorem distance_aborts {S} `{Num S} (a b : PoseArr S) : pa_d a <> pa_d b \/ pa_n a <> pa_n b ->
  maxTranslationDistance a b = Abort /\ averageTranslationDistance a b = Abort.
Proof.
  intros K. unfold maxTranslationDistance, averageTranslationDistance.
  destruct (Nat.eqb_spec (pa_d a) (pa_d b)); cbn [check]; [|auto]. destruct (Nat.eqb_spec (pa_n a) (pa_n b)); cbn [check]; [|auto]. tauto.
Qed.
