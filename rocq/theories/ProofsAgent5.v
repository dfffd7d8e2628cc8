(** Weights, iteration, restart and reset of an agent. *)
From Coq Require Import List NArith ZArith Bool Arith Lia.
From Verif Require Import Base SMap Num ModelTypes ModelPoseGraph ModelProblem ModelRobust ModelPoses ModelSolver ModelAgent
  SpecPoseGraph SpecPGHist SpecSolver SpecAgent ProofsPoseGraph ProofsPGHist ProofsPGMain ProofsPGData ProofsPoses ProofsAgent ProofsAgent2 ProofsAgent3.
Import ListNotations.
Local Open Scope res_scope.

Section A.
Context {S : Type} `{HS : Num S}.
Implicit Types (a : Agent S) (g : PoseGraph S) (T X : PoseArr S) (x : Ext S).

(** *** Weights *)
Lemma list_update_other {A} (l : list A) i j f : i <> j -> nth_error (list_update l i f) j = nth_error l j.
Proof. revert i j. induction l; intros [|i] [|j] Hne; cbn; auto; try lia; apply IHl; lia. Qed.
Lemma list_update_same {A} (l : list A) i f : nth_error (list_update l i f) i = option_map f (nth_error l i).
Proof. revert i. induction l; intros [|i]; cbn; auto. Qed.

Lemma deref_modify_same g p f : deref (modify g p f) p = option_map f (deref g p).
Proof. destruct p; cbn; apply list_update_same. Qed.
Lemma deref_modify_other g p q f : p <> q -> deref (modify g p f) q = deref g q.
Proof. intros Hne. destruct p, q; cbn; auto; apply list_update_other; congruence. Qed.

Lemma fold_modify_deref ps (f : Meas S -> Meas S) : NoDup ps -> forall g q,
  (In q ps -> deref (fold_left (fun g p => modify g p f) ps g) q = option_map f (deref g q)) /\
  (~ In q ps -> deref (fold_left (fun g p => modify g p f) ps g) q = deref g q).
Proof.
  induction 1 as [|p ps Hni HN IH]; intros g q; cbn [fold_left].
  - split; [intros []|auto].
  - destruct (IH (modify g p f) q) as [H1 H2]. split.
    + intros [<-|Hin].
      * rewrite (H2 Hni). apply deref_modify_same.
      * rewrite (H1 Hin), deref_modify_other; auto. congruence.
    + intros Hn. cbn in Hn. rewrite H2 by tauto. apply deref_modify_other. tauto.
Qed.

Lemma residual_pg a g m : ag_residual (sa_pg a g) m = ag_residual a m.
Proof. reflexivity. Qed.

Lemma reweights_deref ps : NoDup ps -> forall a a', foldM reweight_one a ps = Ok a' -> forall q,
  (In q ps -> deref (a_pg a') q = option_map (reweighted a) (deref (a_pg a) q)) /\
  (~ In q ps -> deref (a_pg a') q = deref (a_pg a) q).
Proof.
  induction 1 as [|p ps Hni HN IH]; intros a a' E q; cbn [foldM] in E.
  - injection E as <-. split; [intros []|auto].
  - apply bind_Ok in E. destruct E as [a1 [E1 E]].
    assert (F : deref (a_pg a1) p = option_map (reweighted a) (deref (a_pg a) p) /\
                (forall q', q' <> p -> deref (a_pg a1) q' = deref (a_pg a) q') /\
                (forall m, reweighted a1 m = reweighted a m)).
    { unfold reweight_one in E1. destruct (deref (a_pg a) p) as [m|] eqn:D; [|discriminate].
      cbn [option_map]. unfold reweighted at 1. destruct (mfixed m) eqn:Fx.
      - injection E1 as <-. rewrite D. auto.
      - apply bind_Ok in E1. destruct E1 as [o [Er E1]]. rewrite Er. destruct o as [r|].
        + injection E1 as <-. cbn [a_pg sa_pg]. split; [|split; [|reflexivity]].
          * rewrite deref_modify_same, D. reflexivity.
          * intros q' Hq. apply deref_modify_other. auto.
        + injection E1 as <-. rewrite D. auto. }
    destruct F as (F1 & F2 & F3). destruct (IH _ _ E q) as [H1 H2]. split.
    + intros [<-|Hin].
      * rewrite (H2 Hni). exact F1.
      * rewrite (H1 Hin), F2 by congruence. destruct (deref (a_pg a) q); cbn; auto. rewrite F3. reflexivity.
    + intros Hn. cbn in Hn. rewrite H2 by tauto. apply F2. intros ->. tauto.
Qed.

Lemma nth_map_ext {A} (l l' : list A) (f : A -> A) :
  (forall i, nth_error l' i = option_map f (nth_error l i)) -> l' = map f l.
Proof.
  revert l'. induction l as [|v l IH]; intros l' Q.
  - destruct l' as [|w l']; auto. specialize (Q 0%nat). discriminate.
  - destruct l' as [|w l']; [specialize (Q 0%nat); discriminate|]. cbn.
    pose proof (Q 0%nat) as Q0. cbn in Q0. injection Q0 as ->. f_equal. apply IH. intros i. apply (Q (Datatypes.S i)).
Qed.

(** Loop closures touched by a weight update: private ones and those with an
    active neighbour. *)
Lemma on_active g g' (f : Meas S -> Meas S) ps : pg_wf g -> activeLoopClosures g = Ok ps ->
  (forall q, (In q ps -> deref g' q = option_map f (deref g q)) /\ (~ In q ps -> deref g' q = deref g q)) ->
  pg_odom g' = pg_odom g /\ pg_priv g' = map f (pg_priv g) /\
  pg_shared g' = map (fun m => if act g (other_robot (pg_id g) m) then f m else m) (pg_shared g).
Proof.
  intros W E Q. destruct (active_lists g W) as [EA _]. rewrite EA in E. injection E as <-.
  split; [|split].
  - assert (Hm : pg_odom g' = map (fun m => m) (pg_odom g)).
    { apply nth_map_ext. intros i. destruct (Q (ROdom i)) as [_ H2].
      cbn in H2. rewrite H2; [destruct (nth_error (pg_odom g) i); auto|].
      intros Hin; apply filter_In in Hin; destruct Hin as [Hin _]; apply allLoopClosures_spec in Hin; destruct Hin as [_ Hin]; apply (Hin i); auto. }
    rewrite Hm, map_id. reflexivity.
  - apply nth_map_ext. intros i. destruct (Q (RPriv i)) as [H1 H2]. cbn in *.
    destruct (nth_error (pg_priv g) i) as [m|] eqn:D.
    + rewrite <- H1; auto. apply filter_In. split; auto. apply allLoopClosures_spec. split; [exists m; exact D|discriminate].
    + cbn. apply H2. intros Hin. apply filter_In in Hin. destruct Hin as [Hin _]. apply allLoopClosures_spec in Hin.
      destruct Hin as [[m Hm] _]. cbn in Hm. congruence.
  - apply nth_map_ext. intros i. destruct (Q (RShared i)) as [H1 H2]. cbn in *.
    destruct (nth_error (pg_shared g) i) as [m|] eqn:D; cbn.
    + destruct (act g (other_robot (pg_id g) m)) eqn:A.
      * cbn in H1. rewrite <- H1; auto. apply filter_In. split; [apply allLoopClosures_spec; split; [exists m; exact D|discriminate]|].
        cbn. rewrite D. exact A.
      * rewrite H2; auto. intros Hin. apply filter_In in Hin. destruct Hin as [_ Hin]. cbn in Hin. rewrite D in Hin. congruence.
    + apply H2. intros Hin. apply filter_In in Hin. destruct Hin as [Hin _]. apply allLoopClosures_spec in Hin.
      destruct Hin as [[m Hm] _]. cbn in Hm. congruence.
Qed.

Lemma active_NoDup g ps : pg_wf g -> activeLoopClosures g = Ok ps -> NoDup ps.
Proof.
  intros W E. destruct (active_lists g W) as [EA _]. rewrite EA in E. injection E as <-.
  apply NoDup_filter, allLoopClosures_NoDup.
Qed.

Lemma lc_active_act a m : AInv a -> lc_active a m = act (a_pg a) (other_robot (pg_id (a_pg a)) m).
Proof. intros I. unfold lc_active, act. rewrite (iv_id _ I). reflexivity. Qed.

Lemma updWeights_exact a a' : AInv a -> a_state a = INITIALIZED -> ag_updateMeasurementWeights a = Ok a' ->
  pg_odom (a_pg a') = pg_odom (a_pg a) /\ pg_priv (a_pg a') = map (reweighted a) (pg_priv (a_pg a)) /\
  pg_shared (a_pg a') = map (fun m => if lc_active a m then reweighted a m else m) (pg_shared (a_pg a)).
Proof.
  intros I Hs E. destruct (updWeights_cases _ _ E I) as [[Hi _]|(Hi & ps & a1 & E1 & E2 & Q)].
  - apply is_init_neq in Hi. contradiction.
  - destruct Q as (_ & _ & _ & _ & -> & _). cbn.
    destruct (on_active (a_pg a) (a_pg a1) (reweighted a) ps (iv_pg _ I) E1 (reweights_deref _ (active_NoDup _ _ (iv_pg _ I) E1) _ _ E2)) as (H1 & H2 & H3).
    split; auto. split; auto. rewrite H3. apply map_ext. intros m. rewrite lc_active_act; auto.
Qed.

Lemma initRobust_exact a a' : AInv a -> ag_initializeRobustOptimization a = Ok a' ->
  a_rc a' = rc_reset (a_rc a) /\
  let f m := if mfixed m then m else set_mweight n1 m in
  pg_odom (a_pg a') = pg_odom (a_pg a) /\ pg_priv (a_pg a') = map f (pg_priv (a_pg a)) /\
  pg_shared (a_pg a') = map (fun m => if lc_active a m then f m else m) (pg_shared (a_pg a)).
Proof.
  intros I E. unfold ag_initializeRobustOptimization in E. apply bind_Ok in E. destruct E as [ps [E1 E]]. cbn [a_pg sa_rc] in E1.
  injection E as <-. split; [reflexivity|]. intros f. cbn [a_pg sa_pg sa_rc].
  destruct (on_active (a_pg a) _ f ps (iv_pg _ I) E1 (fold_modify_deref ps f (active_NoDup _ _ (iv_pg _ I) E1) (a_pg a))) as (H1 & H2 & H3).
  split; auto. split; auto. etransitivity; [exact H3|]. apply map_ext. intros m. rewrite lc_active_act; auto.
Qed.

(** The stand-alone robust solver. *)
Lemma mapM_Forall2 {A B} (f : A -> res B) l l' : mapM f l = Ok l' -> Forall2 (fun u v => f u = Ok v) l l'.
Proof.
  revert l'. induction l as [|u l IH]; intros l' E; cbn in E.
  - injection E as <-. constructor.
  - apply bind_Ok in E. destruct E as [v [E1 E]]. apply bind_Ok in E. destruct E as [vs [E2 E]]. injection E as <-. constructor; auto.
Qed.

Definition fix1 (ms ms' : list (Meas S)) : Prop :=
  Forall2 (fun m m' => strip m' = strip m /\ mfixed m' = mfixed m /\ (mfixed m = true -> mweight m' = n1)) ms ms'.
Lemma fix1_loop solve fuel : forall ms0 ms cost ms', fix1 ms0 ms -> pgo_loop solve fuel ms cost = Ok ms' -> fix1 ms0 ms'.
Proof.
  induction fuel as [|fuel IH]; cbn; intros ms0 ms cost ms' F E.
  - injection E as <-. auto.
  - apply bind_Ok in E. destruct E as [T [_ E]]. apply bind_Ok in E. destruct E as [ms1 [E1 E]].
    assert (F1 : fix1 ms0 ms1).
    { apply mapM_Forall2 in E1. clear E. unfold fix1 in *. revert ms1 E1.
      induction F as [|m0 m l0 l (A & B & C) F IHF]; intros ms1 E1; inversion E1 as [|? m1 ? l1 Em El]; subst; constructor; auto.
      unfold pgo_reweight in Em. destruct (mfixed m) eqn:Fx.
      - injection Em as <-. rewrite <- B. auto.
      - apply bind_Ok in Em. destruct Em as [r [_ Em]]. injection Em as <-. cbn.
        split; [rewrite <- A; reflexivity|]. split; [congruence|]. congruence. }
    destruct (existsb pgo_undecided ms1); [eapply IH; eauto|]. injection E as <-. auto.
Qed.
Lemma solveRobust_fixed mudiv solve ms rp T ms' : solveRobustPGO mudiv solve ms rp = Ok (T, ms') -> fix1 ms ms'.
Proof.
  intros E. unfold solveRobustPGO in E. dres E. injection E as <- <-.
  assert (F : fix1 ms (map (set_mweight n1) ms)).
  { clear. unfold fix1. induction ms; cbn; constructor; auto. }
  match goal with H : (if ?b then _ else _) = Ok _ |- _ => destruct b; [eapply fix1_loop; eauto|injection H as <-; auto] end.
Qed.

(** *** Iteration *)
Lemma iterate_split x opt a b a' s : ag_iterate x opt a b = Ok (a', s) ->
  let a1 := sa_inner (sa_iter a (u32 (a_iter a + 1))) (if robust a then a_inner a + 1 else a_inner a)%Z in
  if is_init a then
    exists a2 a3,
      (if p_accel (a_params a)
       then exists aY aX aV again,
         ag_updateY x (sa_alpha (sa_gamma (sa_XPrev a1 (a_X a)) (next_gamma (p_numRobots (a_params a)) (a_gamma a)))
                        (next_alpha (p_numRobots (a_params a)) (next_gamma (p_numRobots (a_params a)) (a_gamma a)))) = Ok aY /\
         ag_updateX opt aY b true = Ok (aX, s) /\ ag_updateV x aX = Ok aV /\ ag_shouldRestart aV = Ok again /\
         (if again then ag_restart opt aV b else Ok aV) = Ok a2
       else ag_updateX opt (sa_XPrev a1 (a_X a)) b false = Ok (a2, s)) /\
      (if b then ag_updateStatus a2 s = Ok a3 else a3 = a2) /\
      a' = sa_pubasync (if b || p_accel (a_params a3) then sa_pub a3 true else a3) true
  else a' = a1 /\ s = true.
Proof.
  intros E a1. unfold ag_iterate in E. apply bind_Ok in E. destruct E as [b1 [E1 E]].
  assert (F1 : b1 = a1).
  { unfold a1. change (robust (sa_iter a (u32 (a_iter a + 1)))) with (robust a) in E1. destruct (robust a).
    - apply bind_Ok in E1. destruct E1 as [i [E0 E1]]. unfold int_incr in E0. apply require_Ok in E0. destruct E0 as [_ E0].
      injection E0 as <-. injection E1 as <-. reflexivity.
    - injection E1 as <-. destruct a; reflexivity. }
  subst b1. clear E1. change (is_init a1) with (is_init a) in E. destruct (is_init a) eqn:Hi.
  2:{ injection E as <- <-. auto. }
  apply bind_Ok in E. destruct E as [[a2 s'] [E2 E]]. apply bind_Ok in E. destruct E as [a3 [E3 E]]. injection E as <- <-.
  exists a2, a3. split; [|split].
  - change (p_accel (a_params (sa_XPrev a1 (a_X a1)))) with (p_accel (a_params a)) in E2. destruct (p_accel (a_params a)) eqn:Ha.
    + dres E2. injection E2 as <- <-. unfold ag_updateGamma in E. dres E. injection E as <-. unfold ag_updateAlpha in E0. dres E0. injection E0 as <-.
      do 4 eexists. split; [eassumption|]. split; [eassumption|]. split; [eassumption|]. split; [eassumption|]. assumption.
    + exact E2.
  - destruct b; [exact E3|]. injection E3 as <-. reflexivity.
  - reflexivity.
Qed.

Lemma updateX_false opt a a' s : ag_updateX opt a false false = Ok (a', s) -> a' = a /\ s = true.
Proof. unfold ag_updateX. cbn. intros E. injection E as <- <-. auto. Qed.

(** Some edge with an active neighbour lacks the neighbour's pose in the cache. *)
Lemma needed_missing a cache : AInv a ->
  (~ missing_pose a cache <-> needed_known (setNeighborPoses (a_pg a) cache)).
Proof.
  intros I. unfold missing_pose, needed_known. cbn [pg_shared pg_nposes setNeighborPoses set_pg_G set_pg_nposes pg_id].
  rewrite (iv_id _ I). split.
  - intros Hn m Hm Ha. change (isNeighborActive (a_pg a) (other_robot (a_id a) m) = Ok true) in Ha.
    destruct (mfind pose_ltb (other_pose (a_id a) m) cache) as [v|] eqn:F; [eauto|]. exfalso. apply Hn. exists m. auto.
  - intros Q (m & Hm & Ha & F). destruct (Q m Hm Ha) as [v Fv]. congruence.
Qed.

Lemma set_nbr_wf a acc : AInv a -> pg_wf (setNeighborPoses (a_pg a) (if acc : bool then a_naux a else a_ndict a)).
Proof.
  intros I. apply (pg_step_wf (a_pg a) (PSetNbr (if acc then a_naux a else a_ndict a))); [|apply I|reflexivity].
  cbn. destruct acc; apply I.
Qed.

(** An attempted optimisation fails exactly when a needed pose is missing, and
    then changes nothing but the pose graph's copy of the cache. *)
Lemma updateX_true opt a acc a' s : AInv a -> ag_updateX opt a true acc = Ok (a', s) ->
  (s = false <-> missing_pose a (if acc then a_naux a else a_ndict a)) /\
  (s = false -> a' = sa_pg a (setNeighborPoses (a_pg a) (if acc then a_naux a else a_ndict a))).
Proof.
  intros I E. unfold ag_updateX in E. cbn [negb] in E. dres E.
  pose proof (set_nbr_wf a acc I) as W.
  destruct (construct_spec _ _ _ W E0) as (B1 & B2 & _).
  specialize (B1 (or_intror eq_refl)). rewrite <- (needed_missing a _ I) in B1.
  destruct b; cbn [negb] in E.
  - assert (Hs : s = true).
    { dres E. injection E as <- <-. reflexivity. }
    subst s. split; [|discriminate]. split; [discriminate|]. intros Hm. destruct B1 as [B1 _]. exfalso. apply (B1 eq_refl). exact Hm.
  - injection E as <- <-. rewrite (B2 eq_refl). split; [|auto]. split; auto. intros _.
    destruct (existsb (missing (setNeighborPoses (a_pg a) (if acc then a_naux a else a_ndict a))) (pg_shared (a_pg a))) eqn:Ex.
    + apply existsb_exists in Ex. destruct Ex as (m & Hm & Q). unfold missing in Q. apply andb_true_iff in Q. destruct Q as [Q1 Q2].
      exists m. split; auto. unfold active, act in Q1. unfold remote in Q2. cbn in Q1, Q2. rewrite (iv_id _ I) in Q1, Q2.
      split.
      * change (match isNeighborActive (a_pg a) (other_robot (a_id a) m) with Ok b => b | _ => false end = true) in Q1.
        destruct (isNeighborActive (a_pg a) (other_robot (a_id a) m)); try discriminate. congruence.
      * match type of Q2 with context [mfind ?c ?k ?l] => destruct (mfind c k l); [discriminate|reflexivity] end.
    + exfalso. assert (needed_known (setNeighborPoses (a_pg a) (if acc then a_naux a else a_ndict a))) by (apply (missing_iff _ W); exact Ex).
      apply (needed_missing a _ I) in H. destruct B1 as [_ B1]. specialize (B1 H). discriminate.
Qed.

Lemma iter_base_inv a : AInv a -> is_init a = true -> forall i j gm al Y,
  AInv (sa_XPrev (sa_inner (sa_iter a i) j) (a_X a)) /\
  (arr (p_r (a_params a)) (p_d (a_params a)) (num_poses a) Y ->
   AInv (sa_Y (sa_alpha (sa_gamma (sa_XPrev (sa_inner (sa_iter a i) j) (a_X a)) gm) al) Y)).
Proof.
  intros I Hi i j gm al Y. apply is_init_eq in Hi. destruct (iv_X _ I ltac:(congruence)) as [Hn HX].
  pose proof (iv_acc _ I) as QA.
  split; [|intros HY]; destruct I; constructor; auto; intros Ha Hs; destruct (QA Ha Hs) as (Q1 & Q2 & Q3); split; auto.
Qed.

(** The status after an optimising iteration. *)
Lemma updateStatus_exact a s a' : ag_updateStatus a s = Ok a' ->
  exists change st, maxTranslationDistance (a_X a) (a_XPrev a) = Ok change /\ statistics (a_pg a) = Ok st /\
    a' = sa_status a (mkStatus (a_id a) (a_state a) (a_inst a) (a_iter a) (ready_of a s change st) change).
Proof. unfold ag_updateStatus. intros E. dres E. injection E as <-. eauto. Qed.

Lemma iterate_fail x opt a b a' s : AInv a -> ag_iterate x opt a b = Ok (a', s) -> s = false ->
  is_init a = true /\ b = true /\ missing_pose a (if p_accel (a_params a) then a_naux a else a_ndict a) /\ st_ready (a_status a') = false.
Proof.
  intros I E ->. pose proof (iterate_split _ _ _ _ _ _ E) as Q. cbn zeta in Q. destruct (is_init a) eqn:Hi; [|destruct Q; discriminate].
  split; auto. destruct Q as (a2 & a3 & Q1 & Q2 & ->).
  destruct b.
  2:{ exfalso. destruct (p_accel (a_params a)).
      - destruct Q1 as (aY & aX & aV & again & _ & Q & _). unfold ag_updateX in Q. cbn in Q. discriminate.
      - apply updateX_false in Q1. destruct Q1; discriminate. }
  split; auto. split.
  - destruct (p_accel (a_params a)) eqn:Ha.
    + destruct Q1 as (aY & aX & aV & again & QY & Q & _). apply is_init_eq in Hi.
      assert (I0 : AInv (sa_alpha (sa_gamma (sa_XPrev (sa_inner (sa_iter a (u32 (a_iter a + 1))) (if robust a then a_inner a + 1 else a_inner a)%Z) (a_X a))
         (next_gamma (p_numRobots (a_params a)) (a_gamma a))) (next_alpha (p_numRobots (a_params a)) (next_gamma (p_numRobots (a_params a)) (a_gamma a))))).
      { apply is_init_eq in Hi. destruct (iter_base_inv a I Hi (u32 (a_iter a + 1)) (if robust a then a_inner a + 1 else a_inner a)%Z n0 n0 (a_Y a)) as [I0 _].
        refine (inv_misc _ _ I0 _ _ _ _ _ _ _ _ _ _ _ _ _ _ _ _); reflexivity. }
      destruct (updateY_form _ _ _ QY I0) as (Y & -> & HY & _ & _). apply is_init_eq in Hi.
      destruct (iter_base_inv a I Hi (u32 (a_iter a + 1)) (if robust a then a_inner a + 1 else a_inner a)%Z (next_gamma (p_numRobots (a_params a)) (a_gamma a))
        (next_alpha (p_numRobots (a_params a)) (next_gamma (p_numRobots (a_params a)) (a_gamma a))) Y) as [_ I1].
      destruct (updateX_true _ _ _ _ _ (I1 HY) Q) as [[B _] _]. specialize (B eq_refl). exact B.
    + destruct (iter_base_inv a I Hi (u32 (a_iter a + 1)) (if robust a then a_inner a + 1 else a_inner a)%Z n0 n0 (a_Y a)) as [I0 _].
      destruct (updateX_true _ _ _ _ _ I0 Q1) as [[B _] _]. specialize (B eq_refl). exact B.
  - destruct (updateStatus_exact _ _ _ Q2) as (ch & st & _ & _ & ->). cbn. reflexivity.
Qed.

Lemma iterate_still x opt a b a' s : AInv a -> p_accel (a_params a) = false -> ag_iterate x opt a b = Ok (a', s) ->
  b = false \/ a_state a <> INITIALIZED \/ missing_pose a (a_ndict a) -> a_X a' = a_X a.
Proof.
  intros I Ha E Hc. pose proof (iterate_split _ _ _ _ _ _ E) as Q. cbn zeta in Q. destruct (is_init a) eqn:Hi; [|destruct Q as [-> _]; reflexivity].
  destruct Q as (a2 & a3 & Q1 & Q2 & ->). rewrite Ha in Q1.
  assert (F : a_X a2 = a_X a).
  { destruct b.
    - destruct (iter_base_inv a I Hi (u32 (a_iter a + 1)) (if robust a then a_inner a + 1 else a_inner a)%Z n0 n0 (a_Y a)) as [I0 _].
      destruct (updateX_true _ _ _ _ _ I0 Q1) as [[_ B1] B2].
      destruct Hc as [?|[?|Hc]]; [discriminate|apply is_init_eq in Hi; contradiction|].
      specialize (B1 Hc). rewrite (B2 B1). reflexivity.
    - apply updateX_false in Q1. destruct Q1 as [-> _]. reflexivity. }
  assert (F3 : a_X a3 = a_X a2).
  { destruct b; [|subst a3; reflexivity]. destruct (updateStatus_exact _ _ _ Q2) as (ch & st & _ & _ & ->). reflexivity. }
  destruct (b || p_accel (a_params a3)); cbn; congruence.
Qed.

(** *** Restart *)
Lemma updateX_keeps opt a b acc a' s : ag_updateX opt a b acc = Ok (a', s) ->
  a_gamma a' = a_gamma a /\ a_alpha a' = a_alpha a /\ a_Y a' = a_Y a /\ a_V a' = a_V a /\ a_XPrev a' = a_XPrev a /\
  a_iter a' = a_iter a /\ a_params a' = a_params a /\ a_state a' = a_state a.
Proof.
  unfold ag_updateX. destruct b; cbn [negb]; intros E.
  - dres E. destruct b; cbn [negb] in E.
    + dres E. injection E as <- <-. cbn. auto 10.
    + injection E as <- <-. cbn. auto 10.
  - injection E as <- <-. destruct acc; cbn; auto 10.
Qed.

Lemma restart_pv x opt a0 b aY aX aV s : ag_updateY x a0 = Ok aY -> ag_updateX opt aY b true = Ok (aX, s) -> ag_updateV x aX = Ok aV ->
  a_params aV = a_params a0 /\ a_iter aV = a_iter a0 /\ a_state aV = a_state a0 /\ a_XPrev aV = a_XPrev a0 /\
  a_gamma aV = a_gamma a0 /\ a_alpha aV = a_alpha a0.
Proof.
  intros QY QX QV.
  assert (FY : exists Y, aY = sa_Y a0 Y) by (unfold ag_updateY in QY; dres QY; injection QY as <-; eauto).
  destruct FY as [Y FY].
  destruct (updateX_keeps _ _ _ _ _ _ QX) as (K1 & K2 & K3 & K4 & K5 & K6 & K7 & K8).
  assert (FV : exists V, aV = sa_V aX V) by (unfold ag_updateV in QV; dres QV; injection QV as <-; eauto).
  destruct FV as [V ->]. cbn. rewrite K1, K2, K5, K6, K7, K8, FY. cbn. auto 10.
Qed.

Lemma restart_mid opt aV b a2 again X0 : p_accel (a_params aV) = true -> a_state aV = INITIALIZED -> a_XPrev aV = X0 ->
  (if again : bool then ag_restart opt aV b else Ok aV) = Ok a2 ->
  a_iter a2 = a_iter aV /\
  if again then a_V a2 = a_X a2 /\ a_Y a2 = a_X a2 /\ a_gamma a2 = n0 /\ a_alpha a2 = n0 /\ (b = false -> a_X a2 = X0) else a2 = aV.
Proof.
  intros Ha Hs Hp Q1. destruct again; [|injection Q1 as <-; auto].
  unfold ag_restart in Q1. assert (Hv : is_init aV = true) by (apply is_init_eq; auto). rewrite Ha, Hv in Q1. cbn [andb] in Q1.
  apply bind_Ok in Q1. destruct Q1 as [[aR sR] [QR1 Q1]]. injection Q1 as <-. cbn.
  destruct (updateX_keeps _ _ _ _ _ _ QR1) as (_ & _ & _ & _ & _ & K6' & _). cbn in K6'. split; [congruence|].
  do 4 (split; auto). intros ->. apply updateX_false in QR1. destruct QR1 as [-> _]. cbn. auto.
Qed.

Lemma restart_end a2 a3 a' b s : (if b : bool then ag_updateStatus a2 s = Ok a3 else a3 = a2) ->
  a' = sa_pubasync (if b || p_accel (a_params a3) then sa_pub a3 true else a3) true ->
  a_iter a' = a_iter a2 /\ a_V a' = a_V a2 /\ a_X a' = a_X a2 /\ a_Y a' = a_Y a2 /\ a_gamma a' = a_gamma a2 /\ a_alpha a' = a_alpha a2.
Proof.
  intros Q2 ->.
  assert (F3 : a_iter a3 = a_iter a2 /\ a_V a3 = a_V a2 /\ a_X a3 = a_X a2 /\ a_Y a3 = a_Y a2 /\ a_gamma a3 = a_gamma a2 /\ a_alpha a3 = a_alpha a2).
  { destruct b; [|subst a3; auto 10]. destruct (updateStatus_exact _ _ _ Q2) as (ch & st & _ & _ & ->). cbn. auto 10. }
  destruct (b || p_accel (a_params a3)); cbn; auto.
Qed.

Lemma iterate_restart x opt a b a' s : p_accel (a_params a) = true -> a_state a = INITIALIZED ->
  ag_iterate x opt a b = Ok (a', s) ->
  p_restart (a_params a) <> 0%N /\
  (if (u32 (a_iter a' + 1) mod p_restart (a_params a) =? 0)%N
   then a_V a' = a_X a' /\ a_Y a' = a_X a' /\ a_gamma a' = n0 /\ a_alpha a' = n0 /\
        (b = false -> a_X a' = a_X a)
   else a_gamma a' = next_gamma (p_numRobots (a_params a)) (a_gamma a) /\
        a_alpha a' = next_alpha (p_numRobots (a_params a)) (next_gamma (p_numRobots (a_params a)) (a_gamma a))) /\
  a_iter a' = u32 (a_iter a + 1).
Proof.
  intros Ha Hs E. pose proof (iterate_split _ _ _ _ _ _ E) as Q. cbn zeta in Q.
  assert (Hi : is_init a = true) by (apply is_init_eq; auto). rewrite Hi, Ha in Q.
  destruct Q as (a2 & a3 & (aY & aX & aV & again & QY & QX & QV & QR & Q1) & Q2 & Q3).
  destruct (restart_pv _ _ _ _ _ _ _ _ QY QX QV) as (PV1 & PV2 & PV3 & PV4 & PV5 & PV6).
  cbn [a_params a_iter a_state a_XPrev a_gamma a_alpha sa_alpha sa_gamma sa_XPrev sa_inner sa_iter] in PV1, PV2, PV3, PV4, PV5, PV6.
  clear QY QX QV.
  unfold ag_shouldRestart in QR. rewrite PV1, Ha in QR. apply require_Ok in QR. destruct QR as [Hz QR].
  apply negb_true_iff, N.eqb_neq in Hz. split; auto. injection QR as QR.
  destruct (restart_mid opt aV b a2 again (a_X a)) as [F2 F2']; try congruence.
  destruct (restart_end _ _ _ _ _ Q2 Q3) as (H1 & H2 & H3 & H4 & H5 & H6). clear Q1 Q2 Q3 E.
  rewrite H1, H2, H3, H4, H5, H6, F2, QR.
  split; [|congruence]. destruct again; [exact F2'|]. subst a2. auto.
Qed.

Lemma iterate_zero x opt a b : p_accel (a_params a) = true -> a_state a = INITIALIZED -> p_restart (a_params a) = 0%N ->
  forall r, ag_iterate x opt a b <> Ok r.
Proof.
  intros Ha Hs Hz [a' s] E. destruct (iterate_restart _ _ _ _ _ _ Ha Hs E) as (Q & _). contradiction.
Qed.

End A.
