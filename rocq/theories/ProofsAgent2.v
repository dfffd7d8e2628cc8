(** The invariant holds in every reachable state. *)
From Coq Require Import List NArith ZArith Bool Arith Lia.
From Verif Require Import Base SMap Num ModelTypes ModelPoseGraph ModelProblem ModelRobust ModelPoses ModelSolver ModelAgent
  SpecPoseGraph SpecPGHist SpecSolver SpecAgent ProofsPoseGraph ProofsPGHist ProofsPGMain ProofsPGData ProofsPoses ProofsAgent.
Import ListNotations.
Local Open Scope res_scope.

Section A.
Context {S : Type} `{HS : Num S}.
Implicit Types (a : Agent S) (g : PoseGraph S) (T X : PoseArr S) (x : Ext S).
Ltac misc I := refine (inv_misc _ _ I _ _ _ _ _ _ _ _ _ _ _ _ _ _ _ _); reflexivity.

Lemma resetpg_gsame g : pg_wf g -> gsame g (pg_reset g).
Proof. intros W. pose proof (pg_reset_wf _ W). constructor; auto. Qed.

Lemma reset_form x a a' : ag_reset x a = Ok a' ->
  a' = ag_clearNeighborPoses (mkAgent (a_id a) (a_params a) (a_X a) WAIT_FOR_DATA
         (mkStatus (a_id a) WAIT_FOR_DATA (u32 (a_inst a + 1)) 0 false n0) (a_rc a) (pg_reset (a_pg a))
         (u32 (a_inst a + 1)) 0 0 0 0 0 [] (repeat false (N.to_nat (p_numRobots (a_params a)))) false false None None
         (a_YLift a) None (a_ndict a) (a_naux a) false (a_gamma a) (a_alpha a) (a_Y a) (a_V a) (a_XPrev a)).
Proof. unfold ag_reset. rewrite endLoop_form. intros E. dres E. injection E as <-. reflexivity. Qed.

Lemma reset_inv x a a' : AInv a -> ag_reset x a = Ok a' -> AInv a'.
Proof.
  intros I E. apply reset_form in E. subst a'. destruct (resetpg_gsame _ (iv_pg _ I)).
  destruct I. constructor; cbn; auto; try congruence; try discriminate.
  - apply repeat_length.
  - split; [exact I|]. discriminate.
  - split; [exact I|]. discriminate.
  - split; [exact I|]. discriminate.
Qed.

Lemma store_poses_spec a k dict : forall cache c, store_poses a k dict cache = Ok c ->
  (forall kv, In kv dict -> robot_id (fst kv) = k /\ mrows (snd kv) = p_r (a_params a) /\ mcols (snd kv) = (p_d (a_params a) + 1)%nat) /\
  (msorted pose_ltb cache -> msorted pose_ltb c) /\
  (msorted pose_ltb dict -> forall p, mfind pose_ltb p c =
     match mfind pose_ltb p dict with
     | Some v => if requireNeighborPose (a_pg a) p then Some v else mfind pose_ltb p cache
     | None => mfind pose_ltb p cache
     end).
Proof.
  induction dict as [|[q w] dict IH]; intros cache c E.
  - cbn in E. okinv E. split; [intros ? []|]. auto.
  - unfold store_poses in E. cbn [foldM] in E. dres E. rename y into c1. cbn [fst snd] in *.
    dres E0. apply N.eqb_eq in C. apply Nat.eqb_eq in C0, C1.
    change (store_poses a k dict c1 = Ok c) in E. destruct (IH _ _ E) as (D1 & D2 & D3).
    split; [intros kv [<-|Hin]; auto|].
    assert (E1 : c1 = if requireNeighborPose (a_pg a) q then mset pose_ltb q w cache else cache)
      by (destruct (requireNeighborPose (a_pg a) q); okinv E0; auto).
    split.
    + intros Hs. apply D2. rewrite E1. destruct (requireNeighborPose (a_pg a) q); auto. apply mset_sorted; auto. apply pose_total.
    + intros Hs p. cbn in Hs. destruct Hs as [HF Hs]. rewrite (D3 Hs p).
      assert (Q : mfind pose_ltb p ((q, w) :: dict) = if poseid_eqb p q then Some w else mfind pose_ltb p dict).
      { cbn [mfind]. destruct (poseid_eqb p q) eqn:Epq.
        - apply poseid_eqb_eq in Epq. subst. rewrite !(st_irr _ pose_total). reflexivity.
        - destruct (pose_ltb p q) eqn:L1.
          + symmetry. apply (mfind_None _ pose_total); auto. intros Hin.
            rewrite Forall_forall in HF. specialize (HF _ Hin).
            pose proof (st_trans _ pose_total _ _ _ L1 HF) as L2. rewrite (st_irr _ pose_total) in L2. discriminate.
          + destruct (pose_ltb q p) eqn:L2; auto.
            pose proof (st_total _ pose_total _ _ L1 L2). subst.
            assert (poseid_eqb q q = true) by (apply poseid_eqb_eq; auto). congruence. }
      rewrite Q. destruct (poseid_eqb p q) eqn:Epq.
      * apply poseid_eqb_eq in Epq. subst q.
        assert (Hnone : mfind pose_ltb p dict = None).
        { apply (mfind_None _ pose_total); auto. intros Hin. rewrite Forall_forall in HF. specialize (HF _ Hin).
          rewrite (st_irr _ pose_total) in HF. discriminate. }
        rewrite Hnone, E1. destruct (requireNeighborPose (a_pg a) p); auto. apply mfind_mset_eq, pose_total.
      * assert (Hne : p <> q) by (intros ->; assert (poseid_eqb q q = true) by (apply poseid_eqb_eq; auto); congruence).
        rewrite E1. destruct (requireNeighborPose (a_pg a) q); auto.
        rewrite (mfind_mset_neq _ pose_total) by auto. reflexivity.
Qed.

Lemma require_npub g p : pg_wf g -> (requireNeighborPose g p = true <-> In p (pg_npub g)).
Proof. intros W. apply (smem_In _ pose_total). apply W. Qed.

Lemma store_ok a k dict c c' : AInv a -> msorted pose_ltb dict ->
  (msorted pose_ltb c /\ forall p v, mfind pose_ltb p c = Some v ->
     In p (pg_npub (a_pg a)) /\ mrows v = p_r (a_params a) /\ mcols v = (p_d (a_params a) + 1)%nat) ->
  store_poses a k dict c = Ok c' ->
  (msorted pose_ltb c' /\ forall p v, mfind pose_ltb p c' = Some v ->
     In p (pg_npub (a_pg a)) /\ mrows v = p_r (a_params a) /\ mcols v = (p_d (a_params a) + 1)%nat).
Proof.
  intros I Hd [H1 H2] E. destruct (store_poses_spec _ _ _ _ _ E) as (D1 & D2 & D3).
  split; auto. intros p v. rewrite (D3 Hd p).
  destruct (mfind pose_ltb p dict) as [w|] eqn:F; auto.
  destruct (requireNeighborPose (a_pg a) p) eqn:Q; auto. intros E1. injection E1 as <-.
  apply (mfind_In _ pose_total _ _ _ Hd) in F. destruct (D1 _ F) as (_ & ? & ?).
  apply require_npub in Q; [auto|apply I].
Qed.

Lemma updNbr_inv x a k dict a' : AInv a -> msorted pose_ltb dict -> ag_updateNeighborPoses x a k dict = Ok a' -> AInv a'.
Proof.
  intros I Hd E. unfold ag_updateNeighborPoses in E. dres E.
  destruct (nbr_ready a k); cbn [negb] in E; [|okinv E; auto]. dres E.
  assert (I1 : AInv y).
  { destruct (state_eqb (a_state a) WAIT_FOR_INITIALIZATION); [|okinv E0; auto]. dres E0.
    destruct y0; [eapply initGlobal_inv; eauto|okinv E0; auto]. }
  destruct (is_init y) eqn:Hi; cbn [negb] in E; [|okinv E; auto]. dres E. okinv E.
  pose proof (store_ok _ _ _ _ _ I1 Hd (iv_nd _ I1) E1) as Q. apply is_init_eq in Hi.
  destruct I1. constructor; cbn; auto. congruence.
Qed.

Lemma updAux_inv a k dict a' : AInv a -> msorted pose_ltb dict -> ag_updateAuxNeighborPoses a k dict = Ok a' -> AInv a'.
Proof.
  intros I Hd E. unfold ag_updateAuxNeighborPoses in E. dres E.
  destruct (nbr_ready a k); cbn [negb] in E; [|okinv E; auto].
  destruct (is_init a) eqn:Hi; cbn [negb] in E; [|okinv E; auto]. dres E. okinv E.
  pose proof (store_ok _ _ _ _ _ I Hd (iv_na _ I) E0) as Q. apply is_init_eq in Hi.
  destruct I. constructor; cbn; auto. congruence.
Qed.

Lemma setAnchor_inv a M a' : AInv a -> ag_setGlobalAnchor a M = Ok a' -> AInv a'.
Proof.
  intros I E. unfold ag_setGlobalAnchor in E. dres E. okinv E. apply Nat.eqb_eq in C, C0.
  unfold relaxation_rank, dimension in *. destruct I. constructor; cbn; auto.
  intros Y EY. injection EY as <-. split; congruence.
Qed.

Lemma status_inv a s : AInv a -> AInv (ag_setNeighborStatus a s).
Proof.
  intros I. pose proof (iv_team _ I) as [T1 T2]. destruct I. constructor; cbn; auto. split; [apply mset_sorted; [apply Nltb_total|auto]|].
  intros k s'. destruct (N.eq_dec k (st_id s)) as [->|Hne].
  - rewrite (mfind_mset_eq _ Nltb_total). intros Q; injection Q as <-. auto.
  - rewrite (mfind_mset_neq _ Nltb_total) by auto. auto.
Qed.

Lemma setNeighborActive_gsame g k b g' : pg_wf g -> setNeighborActive g k b = Ok g' -> gsame g g'.
Proof.
  intros W E. pose proof (setNeighborActive_wf _ _ _ _ W E) as W'.
  unfold setNeighborActive in E. destruct (hasNeighbor g k); cbn [negb] in E; [|okinv E; apply gsame_refl; auto].
  destruct (mfind N.ltb k (pg_active g)) as [b0|]; [|discriminate]. okinv E.
  destruct (eqb b0 b); constructor; auto.
Qed.

Lemma setActive_form a k b a' : AInv a -> ag_setRobotActive a k b = Ok a' ->
  (p_numRobots (a_params a) <= k)%N /\ a' = a \/
  (k < p_numRobots (a_params a))%N /\
  a' = sa_pg (sa_active a (list_update (a_active a) (N.to_nat k) (fun _ => b))) (a_pg a') /\ gsame (a_pg a) (a_pg a').
Proof.
  intros I E. unfold ag_setRobotActive in E.
  destruct (p_numRobots (a_params a) <=? k)%N eqn:L; [okinv E; apply N.leb_le in L; auto|]. apply N.leb_gt in L.
  right. split; auto. dres E. cbn in E. destruct (hasNeighbor (a_pg a) k).
  - dres E. okinv E. cbn. split; [reflexivity|]. eapply setNeighborActive_gsame; [|exact E0]. apply I.
  - injection E as <-. cbn. split; [destruct a; reflexivity|]. apply gsame_refl, I.
Qed.
Lemma setActive_inv a k b a' : AInv a -> ag_setRobotActive a k b = Ok a' -> AInv a'.
Proof.
  intros I E. destruct (setActive_form _ _ _ _ I E) as [[_ ->]|(_ & -> & G)]; auto.
  apply inv_pg; auto. destruct I. constructor; auto. cbn. rewrite list_update_length. auto.
Qed.

(** *** Weights *)
Lemma reweight_form a p a' : reweight_one a p = Ok a' -> a' = sa_pg a (a_pg a') /\ weq (a_pg a) (a_pg a').
Proof.
  unfold reweight_one. intros E. destruct (deref (a_pg a) p) as [m|]; [|discriminate].
  destruct (mfixed m); [okinv E; split; [destruct a'; reflexivity|apply weq_refl]|]. dres E.
  destruct y; okinv E; cbn; (split; [try reflexivity; destruct a'; reflexivity|try apply weq_refl; apply modify_weight_weq]).
Qed.
Lemma eta_pg a : a = sa_pg a (a_pg a). Proof. destruct a; reflexivity. Qed.
Lemma reweights_form ps : forall a a', foldM reweight_one a ps = Ok a' -> a' = sa_pg a (a_pg a') /\ weq (a_pg a) (a_pg a').
Proof.
  induction ps as [|p ps IH]; cbn; intros a a' E; [okinv E; split; [apply eta_pg|apply weq_refl]|].
  dres E. destruct (IH _ _ E) as [F1 W1]. destruct (reweight_form _ _ _ E0) as [F2 W2].
  split; [|eapply weq_trans; eauto]. rewrite F1, F2. reflexivity.
Qed.

Definition zero_status (s : Status S) : Status S := mkStatus (st_id s) (st_state s) (st_inst s) (st_iter s) false n0.

Lemma clearData_gsame g : pg_wf g -> gsame g (clearDataMatrices g).
Proof. intros W. pose proof (clear_wf _ W). constructor; auto. Qed.

Lemma weights_mid_inv a1 c : AInv a1 -> AInv (weights_mid a1 c).
Proof.
  intros I. assert (I2 : AInv (sa_team a1 [])).
  { destruct I. constructor; auto. cbn. split; [exact I|]. discriminate. }
  pose proof (inv_pg _ (clearDataMatrices (a_pg a1)) I2 (clearData_gsame _ (iv_pg _ I))) as I3. misc I3.
Qed.
Lemma weights_mid_fields a1 : let a := a1 in let a2 := weights_mid a1 (a_wuc a1 + 1)%Z in
  a_state a2 = a_state a /\ a_X a2 = a_X a /\ a_ndict a2 = a_ndict a /\ a_naux a2 = a_naux a /\ a_trc a2 = a_trc a /\ a_params a2 = a_params a /\
     a_XInit a2 = a_XInit a /\ a_pg a2 = clearDataMatrices (a_pg a1) /\ a_id a2 = a_id a /\ a_wuc a2 = (a_wuc a + 1)%Z /\ a_lwu a2 = a_iter a /\ a_iter a2 = a_iter a
     /\ a_inst a2 = a_inst a /\ a_inner a2 = 0%Z /\ a_rc a2 = rc_update (a_rc a) /\ a_team a2 = [] /\ a_active a2 = a_active a /\ a_status a2 = zero_status (a_status a) /\
     a_thread a2 = a_thread a /\ a_YLift a2 = a_YLift a /\ a_anchor a2 = a_anchor a /\ a_TLocal a2 = a_TLocal a /\ a_pub a2 = a_pub a /\ a_pubasync a2 = a_pubasync a.
Proof. cbv zeta. sp; reflexivity. Qed.

Lemma weights_reset_form a2 a3 : AInv a2 -> weights_reset a2 = Ok a3 -> AInv a3 /\
  exists X nd na trc, a3 = sa_naux (sa_ndict (sa_X (sa_trc a2 trc) X) nd) na /\
     (if (a_trc a2 <? p_nreset (a_params a2))%Z
      then trc = (a_trc a2 + 1)%Z /\ nd = [] /\ na = [] /\ a_XInit a2 = Some X
      else trc = a_trc a2 /\ nd = a_ndict a2 /\ na = a_naux a2 /\ X = a_X a2).
Proof.
  intros I2 E3. unfold weights_reset in E3. destruct (a_trc a2 <? p_nreset (a_params a2))%Z.
  - apply bind_Ok in E3. destruct E3 as [a4 [E1 E3]]. injection E3 as <-.
    assert (I2b : AInv (sa_trc a2 (a_trc a2 + 1)%Z)) by (misc I2).
    pose proof (setXInit_inv _ _ I2b E1) as I3. split; [apply clearNbr_inv; auto|].
    unfold ag_setXToInitialGuess in E1. apply check_Ok in E1. destruct E1 as [_ E1].
    change (a_XInit (sa_trc a2 (a_trc a2 + 1)%Z)) with (a_XInit a2) in E1. destruct (a_XInit a2) as [X|]; [|discriminate].
    injection E1 as <-. exists X, [], [], (a_trc a2 + 1)%Z. split; [reflexivity|auto].
  - injection E3 as <-. split; auto. exists (a_X a2), (a_ndict a2), (a_naux a2), (a_trc a2).
    split; [destruct a2; reflexivity|]. auto.
Qed.

Lemma updWeights_cases a a' : ag_updateMeasurementWeights a = Ok a' -> AInv a ->
  (is_init a = false /\ a' = a) \/
  (is_init a = true /\ exists ps a1,
     activeLoopClosures (a_pg a) = Ok ps /\ foldM reweight_one a ps = Ok a1 /\
     AInv a' /\ a_state a' = INITIALIZED /\
     a_id a' = a_id a /\ a_params a' = a_params a /\ a_pg a' = clearDataMatrices (a_pg a1) /\ gsame (a_pg a) (a_pg a') /\
     a_wuc a' = (a_wuc a + 1)%Z /\ a_lwu a' = a_iter a /\ a_iter a' = a_iter a /\ a_inst a' = a_inst a /\ a_inner a' = 0%Z /\
     a_rc a' = rc_update (a_rc a) /\ a_team a' = [] /\ a_active a' = a_active a /\
     a_status a' = zero_status (a_status a) /\ a_thread a' = a_thread a /\ a_YLift a' = a_YLift a /\ a_anchor a' = a_anchor a /\
     a_XInit a' = a_XInit a /\ a_TLocal a' = a_TLocal a /\ a_pub a' = a_pub a /\ a_pubasync a' = a_pubasync a /\
     (if (a_trc a <? p_nreset (a_params a))%Z
      then a_trc a' = (a_trc a + 1)%Z /\ a_ndict a' = [] /\ a_naux a' = [] /\ a_XInit a = Some (a_X a')
      else a_trc a' = a_trc a /\ a_ndict a' = a_ndict a /\ a_naux a' = a_naux a /\ a_X a' = a_X a)).
Proof.
  intros E I. unfold ag_updateMeasurementWeights in E.
  destruct (is_init a) eqn:Hi; cbn [negb] in E; [|okinv E; auto]. right. split; auto.
  dres E. rename y into ps, y0 into a1. exists ps, a1. split; auto. split; auto.
  destruct (reweights_form _ _ _ E1) as [F1 W1]. apply is_init_eq in Hi.
  unfold int_incr in E2. dres E2. okinv E2. rename y2 into a3. clear C.
  assert (G1 : gsame (a_pg a) (clearDataMatrices (a_pg a1))).
  { eapply gsame_trans; [apply weq_gsame; eauto; apply I|]. apply clearData_gsame. eapply weq_wf; eauto. apply I. }
  assert (I1 : AInv a1).
  { rewrite F1. apply inv_pg; auto. apply weq_gsame; auto. apply I. }
  assert (I2 := weights_mid_inv _ (a_wuc a1 + 1)%Z I1).
  assert (R2 := weights_mid_fields a1).
  cbv zeta in R2. generalize dependent (weights_mid a1 (a_wuc a1 + 1)%Z). intros a2 E3 I2 R2.
  assert (R1 : a_id a1 = a_id a /\ a_params a1 = a_params a /\ a_X a1 = a_X a /\ a_state a1 = a_state a /\ a_status a1 = a_status a /\ a_rc a1 = a_rc a /\ a_inst a1 = a_inst a /\ a_iter a1 = a_iter a /\ a_lwu a1 = a_lwu a /\ a_inner a1 = a_inner a /\ a_wuc a1 = a_wuc a /\ a_trc a1 = a_trc a /\ a_team a1 = a_team a /\ a_active a1 = a_active a /\ a_pub a1 = a_pub a /\ a_pubasync a1 = a_pubasync a /\ a_XInit a1 = a_XInit a /\ a_TLocal a1 = a_TLocal a /\ a_YLift a1 = a_YLift a /\ a_anchor a1 = a_anchor a /\ a_ndict a1 = a_ndict a /\ a_naux a1 = a_naux a /\ a_thread a1 = a_thread a).
  { rewrite F1. sp; reflexivity. }
  assert (R2' : a_state a2 = a_state a /\ a_X a2 = a_X a /\ a_ndict a2 = a_ndict a /\ a_naux a2 = a_naux a /\ a_trc a2 = a_trc a /\ a_params a2 = a_params a /\
     a_XInit a2 = a_XInit a /\ a_pg a2 = clearDataMatrices (a_pg a1) /\ a_id a2 = a_id a /\ a_wuc a2 = (a_wuc a + 1)%Z /\ a_lwu a2 = a_iter a /\ a_iter a2 = a_iter a
     /\ a_inst a2 = a_inst a /\ a_inner a2 = 0%Z /\ a_rc a2 = rc_update (a_rc a) /\ a_team a2 = [] /\ a_active a2 = a_active a /\ a_status a2 = zero_status (a_status a) /\
     a_thread a2 = a_thread a /\ a_YLift a2 = a_YLift a /\ a_anchor a2 = a_anchor a /\ a_TLocal a2 = a_TLocal a /\ a_pub a2 = a_pub a /\ a_pubasync a2 = a_pubasync a).
  { decompose [and] R1. decompose [and] R2. clear R1 R2. sp; congruence. }
  clear R1 R2. rename R2' into R2. clear F1 E1.
  destruct (weights_reset_form _ _ I2 E3) as (I3 & X & nd & na & trc & F3 & R3).
  replace (a_trc a2) with (a_trc a) in R3 by (symmetry; apply R2). replace (a_params a2) with (a_params a) in R3 by (symmetry; apply R2).
  assert (R4 : AInv a' /\ exists gm al Y V XP, a' = sa_XPrev (sa_V (sa_Y (sa_alpha (sa_gamma a3 gm) al) Y) V) XP).
  { destruct (p_accel (a_params a3)).
    - split; [eapply initAccel_inv; eauto|]. apply initAccel_form; auto.
    - injection E as <-. split; auto. do 5 eexists. apply eta_acc. }
  destruct R4 as (I4 & gm & al & Y & V & XP & F4).
  split; auto. decompose [and] R2. clear R2.
  assert (P : a_id a' = a_id a3 /\ a_params a' = a_params a3 /\ a_X a' = a_X a3 /\ a_state a' = a_state a3 /\ a_status a' = a_status a3 /\ a_rc a' = a_rc a3 /\ a_pg a' = a_pg a3 /\ a_inst a' = a_inst a3 /\ a_iter a' = a_iter a3 /\ a_lwu a' = a_lwu a3 /\ a_inner a' = a_inner a3 /\ a_wuc a' = a_wuc a3 /\ a_trc a' = a_trc a3 /\ a_team a' = a_team a3 /\ a_active a' = a_active a3 /\ a_pub a' = a_pub a3 /\ a_pubasync a' = a_pubasync a3 /\ a_XInit a' = a_XInit a3 /\ a_TLocal a' = a_TLocal a3 /\ a_YLift a' = a_YLift a3 /\ a_anchor a' = a_anchor a3 /\ a_ndict a' = a_ndict a3 /\ a_naux a' = a_naux a3 /\ a_thread a' = a_thread a3).
  { rewrite F4. sp; reflexivity. }
  assert (P' : a_id a3 = a_id a2 /\ a_params a3 = a_params a2 /\ a_X a3 = X /\ a_state a3 = a_state a2 /\ a_status a3 = a_status a2 /\ a_rc a3 = a_rc a2 /\ a_pg a3 = a_pg a2 /\ a_inst a3 = a_inst a2 /\ a_iter a3 = a_iter a2 /\ a_lwu a3 = a_lwu a2 /\ a_inner a3 = a_inner a2 /\ a_wuc a3 = a_wuc a2 /\ a_trc a3 = trc /\ a_team a3 = a_team a2 /\ a_active a3 = a_active a2 /\ a_pub a3 = a_pub a2 /\ a_pubasync a3 = a_pubasync a2 /\ a_XInit a3 = a_XInit a2 /\ a_TLocal a3 = a_TLocal a2 /\ a_YLift a3 = a_YLift a2 /\ a_anchor a3 = a_anchor a2 /\ a_ndict a3 = nd /\ a_naux a3 = na /\ a_thread a3 = a_thread a2).
  { rewrite F3. sp; reflexivity. }
  clear F3 F4. decompose [and] P. decompose [and] P'. clear P P'.
  sp; try congruence; try match goal with |- if ?b then _ else _ => destruct b; decompose [and] R3; sp; congruence end.
Qed.

Lemma updWeights_inv a a' : AInv a -> ag_updateMeasurementWeights a = Ok a' -> AInv a'.
Proof.
  intros I E. destruct (updWeights_cases _ _ E I) as [[_ ->]|(_ & ps & a1 & Q)]; auto. tauto.
Qed.

(** *** Priors *)
Lemma setPrior_gsame g i P g' : pg_wf g -> setPrior g i P = Ok g' -> gsame g g'.
Proof.
  intros W E. pose proof (setPrior_wf _ _ _ _ W E). unfold setPrior in E. dres E. okinv E. constructor; auto.
Qed.
Lemma anchorFirst_form a a' b : ag_anchorFirstPose a = Ok (a', b) -> AInv a -> a' = sa_pg a (a_pg a') /\ gsame (a_pg a) (a_pg a').
Proof.
  intros E I. unfold ag_anchorFirstPose in E. destruct (0 <? num_poses a)%nat.
  - dres E. injection E as <- <-. cbn. split; [reflexivity|]. eapply setPrior_gsame; eauto. apply I.
  - injection E as <- <-. split; [apply eta_pg|apply gsame_refl, I].
Qed.
Lemma anchorWith_form a P a' b : ag_anchorFirstPoseWith a P = Ok (a', b) -> AInv a -> a' = sa_pg a (a_pg a') /\ gsame (a_pg a) (a_pg a').
Proof.
  intros E I. unfold ag_anchorFirstPoseWith in E. dres E. injection E as <- <-. cbn. split; [reflexivity|].
  eapply setPrior_gsame; eauto. apply I.
Qed.

(** *** Initialisation *)
Lemma local_traj_form x ls a a' T : local_trajectory x ls a = Ok (a', T) -> a' = sa_pg a (a_pg a') /\ weq (a_pg a) (a_pg a').
Proof.
  unfold local_trajectory. intros E. destruct (p_init (a_params a)); dres E.
  - injection E as <- <-. split; [apply eta_pg|apply weq_refl].
  - injection E as <- <-. split; [apply eta_pg|apply weq_refl].
  - injection E as <- <-. clear E0 E1. revert E2. generalize dependent a. generalize dependent y0.
    induction l as [|m l IH]; cbn; intros y0 a E; [injection E as <-; split; [apply eta_pg|apply weq_refl]|].
    dres E. destruct (IH _ _ E) as [F1 W1].
    destruct (nltb (mweight m) w_tol).
    + dres E0. injection E0 as <-. destruct (setWeight_form _ _ _ _ _ _ _ E1) as [F2 W2].
      split; [|eapply weq_trans; eauto]. rewrite F1, F2. reflexivity.
    + injection E0 as <-. auto.
Qed.

(** A finished local initialisation: what happens after the local trajectory is known. *)
Lemma init_tail x a T a' : AInv a -> a_state a = WAIT_FOR_DATA -> pg_n (a_pg a) <> 0%N ->
  (do T <- to_first_frame x (dimension a) (num_poses a) T;
   let a := sa_TLocal a (Some T) in
   do X <- pa_new (relaxation_rank a) (dimension a) (num_poses a);
   let a := sa_X a X in
   let a := sa_state a WAIT_FOR_INITIALIZATION in
   do a <- (if (a_id a =? 0)%N || negb (p_multi (a_params a))
            then do I <- pose_identity (p_d (a_params a)); ag_initializeInGlobalFrame a I
            else Ok a);
   if p_async (a_params a) then ag_startOptimizationLoop a else Ok a) = Ok a' ->
  AInv a' /\ a_state a' <> WAIT_FOR_DATA /\
  exists T' a1, to_first_frame x (dimension a) (num_poses a) T = Ok T' /\ a_TLocal a' = Some T' /\
    AInv a1 /\ a_state a1 = WAIT_FOR_INITIALIZATION /\
    (exists X, a1 = sa_state (sa_X (sa_TLocal a (Some T')) X) WAIT_FOR_INITIALIZATION) /\
    ((exists b, a' = sa_thread a1 b) \/
     (exists J a2 b, pose_identity (p_d (a_params a)) = Ok J /\ ag_initializeInGlobalFrame a1 J = Ok a2 /\ a' = sa_thread a2 b)).
Proof.
  intros I Hs Hn E. dres E. rename y into T', y0 into X, y1 into a2.
  pose proof (to_first_frame_arr _ _ _ _ _ E0) as HT. pose proof (pa_new_arr _ _ _ _ E1) as HX. cbn in HX.
  match type of E2 with (if _ then bind _ (fun J => ag_initializeInGlobalFrame ?A J) else _) = _ => set (a1 := A) in * end.
  assert (I1 : AInv a1).
  { pose proof (wf_n0 _ I Hs) as [T0 X0]. unfold dimension, relaxation_rank in *. pose proof (iv_d _ I) as Qd. pose proof (iv_r _ I) as Qr. cbn in HX, E1.
    rewrite Qd in *. rewrite Qr in *. pose proof (iv_nd0 _ I) as Qn. destruct I. constructor; cbn; auto; try congruence; try discriminate.
    - intros T1 ET. injection ET as <-. split; [discriminate|]. exact HT.
    - intros _. apply Qn. congruence. }
  assert (Hb : exists b, a' = sa_thread a2 b).
  { destruct (p_async (a_params a2)); [apply startLoop_form in E; destruct E; eauto|]. injection E as <-.
    exists (a_thread a2). destruct a2; reflexivity. }
  destruct Hb as [b Hb].
  destruct ((a_id a1 =? 0)%N || negb (p_multi (a_params a1))).
  - dres E2. rename y into J. destruct (initGlobal_inv _ _ _ I1 E2) as [I2 S2].
    pose proof (initGlobal_form _ _ _ E2) as F2.
    split; [rewrite Hb; misc I2|]. split; [rewrite Hb; cbn; congruence|].
    exists T', a1. split; auto. split; [rewrite Hb; cbn; decompose [and] F2; replace (a_TLocal a2) with (a_TLocal a1) by congruence; reflexivity|].
    split; auto. split; [reflexivity|]. split; [exists X; reflexivity|]. right. exists J, a2, b. auto.
  - injection E2 as <-. split; [rewrite Hb; misc I1|]. split; [rewrite Hb; cbn; discriminate|].
    exists T', a1. split; auto. split; [rewrite Hb; reflexivity|]. split; auto. split; [reflexivity|].
    split; [exists X; reflexivity|]. left. exists b; auto.
Qed.

Lemma initialize_cases x ls a TI a' : ag_initialize x ls a TI = Ok a' -> AInv a ->
  a' = a \/ a' = sa_thread a false /\ pg_n (a_pg a) = 0%N \/
  (a_state a = WAIT_FOR_DATA /\ AInv a' /\ a_state a' <> WAIT_FOR_DATA /\ pg_n (a_pg a) <> 0%N /\
   exists a0 T T' a1, weq (a_pg a) (a_pg a0) /\ a0 = sa_pg (sa_thread a false) (a_pg a0) /\
    (* the trajectory used: the given one, or the computed one *)
    (TI = Some T /\ pa_n T = num_poses a /\ a_pg a0 = a_pg a \/
     local_trajectory x ls (sa_thread a false) = Ok (a0, T) /\
     forall T0, TI = Some T0 -> ~ (pa_d T0 = dimension a /\ pa_n T0 = num_poses a)) /\ pa_d T = dimension a /\
    to_first_frame x (dimension a) (num_poses a) T = Ok T' /\ a_TLocal a' = Some T' /\
    AInv a1 /\ a_state a1 = WAIT_FOR_INITIALIZATION /\
    (exists X, a1 = sa_state (sa_X (sa_TLocal a0 (Some T')) X) WAIT_FOR_INITIALIZATION) /\
    ((exists b, a' = sa_thread a1 b) \/
     (exists J a2 b, pose_identity (p_d (a_params a)) = Ok J /\ ag_initializeInGlobalFrame a1 J = Ok a2 /\ a' = sa_thread a2 b))).
Proof.
  intros E I. unfold ag_initialize in E.
  destruct (state_eqb (a_state a) WAIT_FOR_DATA) eqn:Hs; cbn [negb] in E; [|injection E as <-; auto].
  apply state_eqb_eq in Hs. rewrite endLoop_form in E. cbv zeta in E.
  change (pg_n (a_pg (sa_thread a false))) with (pg_n (a_pg a)) in E.
  destruct (pg_n (a_pg a) =? 0)%N eqn:Hn; [injection E as <-; apply N.eqb_eq in Hn; auto|]. apply N.eqb_neq in Hn.
  right; right.
  assert (I0 : AInv (sa_thread a false)) by (misc I).
  apply bind_Ok in E. destruct E as [[a0 T] [E0 E]].
  assert (Q : weq (a_pg a) (a_pg a0) /\ a0 = sa_pg (sa_thread a false) (a_pg a0) /\
    (TI = Some T /\ pa_n T = num_poses a /\ a_pg a0 = a_pg a \/ local_trajectory x ls (sa_thread a false) = Ok (a0, T) /\
     forall T0, TI = Some T0 -> ~ (pa_d T0 = dimension a /\ pa_n T0 = num_poses a)) /\ pa_d T = dimension a).
  { clear E. destruct TI as [TI|].
    - destruct ((pa_d TI =? dimension (sa_thread a false))%nat && (pa_n TI =? num_poses (sa_thread a false))%nat) eqn:C.
      + injection E0 as <- <-. apply andb_true_iff in C. destruct C as [C1 C2]. apply Nat.eqb_eq in C1, C2.
        split; [apply weq_refl|]. split; [apply eta_pg|]. auto.
      + dres E0. injection E0 as <- <-. destruct (local_traj_form _ _ _ _ _ E) as [F W]. apply Nat.eqb_eq in C0.
        change (dimension a1) with (pg_d (a_pg a1)) in C0. rewrite (weq_d _ _ W) in C0.
        split; auto. split; auto. split; auto. right. split; auto. intros T0 [= <-] [H1 H2]. apply andb_false_iff in C.
        change (dimension (sa_thread a false)) with (dimension a) in C. change (num_poses (sa_thread a false)) with (num_poses a) in C.
        rewrite H1, H2, !Nat.eqb_refl in C. destruct C; discriminate.
    - dres E0. injection E0 as <- <-. destruct (local_traj_form _ _ _ _ _ E) as [F W]. apply Nat.eqb_eq in C.
      change (dimension a1) with (pg_d (a_pg a1)) in C. rewrite (weq_d _ _ W) in C.
      split; auto. split; auto. split; auto. right. split; auto. intros T0 [=]. }
  destruct Q as (W & F0 & HT & Hd).
  assert (I1 : AInv a0) by (rewrite F0; apply inv_pg; auto; apply weq_gsame; auto; apply I).
  assert (Hs1 : a_state a0 = WAIT_FOR_DATA) by (rewrite F0; exact Hs).
  assert (Hn1 : pg_n (a_pg a0) <> 0%N) by (rewrite (weq_n _ _ W); auto).
  assert (D1 : dimension a0 = dimension a) by (unfold dimension; apply (weq_d _ _ W)).
  assert (N1 : num_poses a0 = num_poses a) by (unfold num_poses; rewrite (weq_n _ _ W); auto).
  assert (P1 : a_params a0 = a_params a) by (rewrite F0; reflexivity).
  destruct (init_tail x a0 T a' I1 Hs1 Hn1 E) as (I' & S' & T' & a1 & A1 & A2 & A3 & A4 & A5 & A6).
  rewrite D1, N1 in A1. rewrite P1 in A6.
  split; auto. split; auto. split; auto. split; auto. exists a0, T, T', a1. auto 12.
Qed.

Lemma initialize_inv x ls a TI a' : AInv a -> ag_initialize x ls a TI = Ok a' -> AInv a'.
Proof.
  intros I E. destruct (initialize_cases _ _ _ _ _ E I) as [->|[[-> _]|Q]]; auto; [misc I|]. tauto.
Qed.

(** *** All calls *)
Lemma step_inv x a o a' : AInv a -> aop_ok o -> ag_step x a o = Ok a' -> AInv a'.
Proof.
  intros I Ho E. destruct o; cbn [ag_step aop_ok] in *.
  - eapply setX_inv; eauto.
  - eapply setXInit_inv; eauto.
  - eapply add_inv; eauto.
  - eapply setMeas_inv; eauto.
  - eapply initialize_inv; eauto.
  - apply (initGlobal_inv _ _ _ I E).
  - dres E. okinv E. apply (iterate_all _ _ _ _ _ _ E0 I).
  - destruct (a_thread a); [|okinv E; auto]. dres E. okinv E. apply (iterate_all _ _ _ _ _ _ E0 I).
  - eapply reset_inv; eauto.
  - eapply startLoop_inv; eauto.
  - okinv E. apply endLoop_inv; auto.
  - eapply restart_inv; eauto.
  - eapply updNbr_inv; eauto.
  - eapply updAux_inv; eauto.
  - okinv E. apply clearNbr_inv; auto.
  - eapply clearActive_inv; eauto.
  - eapply setLift_inv; eauto.
  - eapply setAnchor_inv; eauto.
  - okinv E. apply status_inv; auto.
  - okinv E. misc I.
  - eapply setActive_inv; eauto.
  - eapply updWeights_inv; eauto.
  - dres E. okinv E. eapply setWeight_inv; eauto.
  - eapply initRobust_inv; eauto.
  - dres E. okinv E. destruct (anchorFirst_form _ _ _ E0 I) as [-> G]. apply inv_pg; auto.
  - dres E. okinv E. destruct (anchorWith_form _ _ _ _ E0 I) as [-> G]. apply inv_pg; auto.
Qed.

Lemma new_form x id p a : newAgent x id p = Ok a -> exists X g YL, pa_new (p_r p) (p_d p) 1 = Ok X /\ newPoseGraph id (p_r p) (p_d p) = Ok g /\
  a = mkAgent id p X WAIT_FOR_DATA (mkStatus id WAIT_FOR_DATA 0 0 false n0) (rc_new (p_robust p)) g
             0 0 0 0 0 0 [] (repeat true (N.to_nat (p_numRobots p))) false false None None YL None [] [] false n0 n0 X X X /\
  (forall Y, YL = Some Y -> mrows Y = p_r p /\ mcols Y = p_d p) /\ (id <> 0%N -> YL = None).
Proof.
  unfold newAgent. intros E. dres E. okinv E. exists y, y0.
  destruct (id =? 0)%N eqn:Hid.
  - unfold ag_setLiftingMatrix in E2. dres E2. okinv E2. apply Nat.eqb_eq in C, C0. apply N.eqb_eq in Hid.
    eexists. split; auto. split; auto. split; [reflexivity|]. split; [intros Y EY; injection EY as <-; auto|]. congruence.
  - okinv E2. eexists. split; auto. split; auto. split; [reflexivity|]. split; [discriminate|auto].
Qed.

Lemma new_inv x id p a : newAgent x id p = Ok a -> AInv a.
Proof.
  intros E. destruct (new_form _ _ _ _ E) as (X & g & YL & EX & Eg & -> & HY & _).
  destruct (new_fields _ _ _ _ Eg) as (A1 & A2 & A3 & _). pose proof (newPoseGraph_wf _ _ _ _ Eg).
  assert (Hd : (p_d p <= p_r p)%nat).
  { unfold newPoseGraph in Eg. dres Eg. apply Nat.leb_le; auto. }
  constructor; cbn; auto; try congruence; try discriminate.
  - apply repeat_length.
  - split; [exact I|]. discriminate.
  - split; [exact I|]. discriminate.
  - split; [exact I|]. discriminate.
Qed.

Lemma run_inv x os : forall a a', AInv a -> Forall aop_ok os -> ag_run x a os = Ok a' -> AInv a'.
Proof.
  intros a a' I HF E. unfold ag_run in E. eapply (foldM_inv (fun a => AInv a) aop_ok); [|exact HF|exact I|exact E].
  intros; eapply step_inv; eauto.
Qed.

Lemma areach_inv x id p os a : areach x id p os a -> AInv a.
Proof. intros [E HF]. dres E. eapply run_inv; eauto. eapply new_inv; eauto. Qed.

End A.
