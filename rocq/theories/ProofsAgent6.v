(** The agent lemmas in the form used by PropAgent. *)
From Coq Require Import List NArith ZArith Bool Lia.
From Verif Require Import Base SMap Num ModelTypes ModelPoseGraph ModelProblem ModelRobust ModelPoses ModelSolver ModelAgent
  SpecPoseGraph SpecAgent ProofsPoseGraph ProofsPGHist ProofsAgent ProofsAgent2 ProofsAgent3 ProofsAgent4 ProofsAgent5.
Import ListNotations.
Local Open Scope res_scope.

Section A.
Context {S : Type} `{Num S}.
Implicit Types (a : Agent S) (x : Ext S) (p : AgentParams S) (o : aop S).

Lemma c32_step x id p os a o a' : areach x id p os a -> aop_ok o -> ag_step x a o = Ok a' ->
  next_state a o (a_state a') /\
  (o <> AReset -> (rank (a_state a) <= rank (a_state a'))%nat) /\
  (feeds o = false \/ a_state a <> WAIT_FOR_DATA -> stored a' = stored a /\ num_poses a' = num_poses a).
Proof.
  intros R O E. pose proof (areach_inv _ _ _ _ _ R) as I. pose proof (step_state _ _ _ _ I O E) as N.
  split; auto. split.
  - intros Nr. destruct o; cbn in N; try (rewrite N; lia); try congruence; try (destruct N as [_ ->]; cbn; destruct (a_state a); cbn; lia).
    + rewrite N. destruct (a_state a); cbn; try lia.
    + destruct N as [->|[-> ->]]; cbn; lia.
  - intros F. pose proof (step_graph _ _ _ _ I O E F) as G. split; [apply gsame_stored; auto|].
    unfold num_poses. f_equal. apply (gs_n _ _ G).
Qed.

Lemma c32_counters x id p os a : areach x id p os a ->
  let es := history x id p os in
  a_id a = id /\ a_params a = p /\
  a_inst a = u32 (SpecAgent.count is_reset es) /\ a_iter a = u32 (SpecAgent.count is_iter (since is_reset es)).
Proof. intros R es. destruct (hist_all _ _ _ _ _ R) as (A1 & A2 & A3 & A4 & _). auto. Qed.

Lemma c33_estimate x id p os a : areach x id p os a -> a_state a <> WAIT_FOR_DATA ->
  (0 < num_poses a)%nat /\ arr (p_r p) (p_d p) (num_poses a) (a_X a) /\ ag_getX a = Ok (pa_X (a_X a)) /\
  (a_state a = INITIALIZED ->
   (forall i, (N.to_nat i < num_poses a)%nat -> exists v, ag_getSharedPose a i = Ok (Some v) /\ is_block (p_r p) (p_d p) (pa_X (a_X a)) (N.to_nat i) v) /\
   (forall i, (num_poses a <= N.to_nat i)%nat -> ag_getSharedPose a i = Ok None) /\
   (exists D, ag_getSharedPoseDict a = Ok (Some D) /\ dict_spec a (pa_X (a_X a)) (fun _ => True) D) /\
   (forall k, exists D, ag_getSharedPoseDictWithNeighbor a k = Ok (Some D) /\
      dict_spec a (pa_X (a_X a)) (fun m => mr1 m = k \/ mr2 m = k) D)).
Proof.
  intros R Hs. pose proof (areach_inv _ _ _ _ _ R) as I. destruct (hist_all _ _ _ _ _ R) as (_ & Hp & _).
  destruct (iv_X _ I Hs) as [Hn HX]. split; [unfold num_poses; lia|]. rewrite Hp in HX. split; auto. split; [reflexivity|].
  intros Hi. assert (Hb : is_init a = true) by (apply is_init_eq; auto).
  unfold ag_getSharedPose, ag_getSharedPoseDict, ag_getSharedPoseDictWithNeighbor. rewrite Hb. cbn [negb].
  split; [|split; [|split]].
  - intros i Hi'. destruct (N.leb_spec (pg_n (a_pg a)) i); [unfold num_poses in Hi'; lia|].
    destruct (pa_pose_block _ _ _ _ _ HX Hi') as (v & -> & B). cbn. eauto.
  - intros i Hi'. destruct (N.leb_spec (pg_n (a_pg a)) i); auto. unfold num_poses in Hi'; lia.
  - rewrite <- Hp in HX. destruct (pose_dict_spec _ _ I HX) as (D & -> & HD). cbn. eauto.
  - intros k. rewrite <- Hp in HX. destruct (pose_dict_with_spec _ _ k I HX) as (D & -> & HD). cbn. eauto.
Qed.

Lemma c33_aux x id p os a : areach x id p os a -> a_state a = INITIALIZED -> p_accel p = true ->
  (forall i, (N.to_nat i < num_poses a)%nat -> exists v, ag_getAuxSharedPose a i = Ok (Some v) /\ is_block (p_r p) (p_d p) (pa_X (a_Y a)) (N.to_nat i) v) /\
  (exists D, ag_getAuxSharedPoseDict a = Ok (Some D) /\ dict_spec a (pa_X (a_Y a)) (fun _ => True) D) /\
  (forall k, exists D, ag_getAuxSharedPoseDictWithNeighbor a k = Ok (Some D) /\
      dict_spec a (pa_X (a_Y a)) (fun m => mr1 m = k \/ mr2 m = k) D).
Proof.
  intros R Hi Ha. pose proof (areach_inv _ _ _ _ _ R) as I. destruct (hist_all _ _ _ _ _ R) as (_ & Hp & _).
  assert (Hacc : p_accel (a_params a) = true) by congruence.
  destruct (iv_acc _ I Hacc Hi) as [HX _].
  assert (Hb : is_init a = true) by (apply is_init_eq; auto).
  unfold ag_getAuxSharedPose, ag_getAuxSharedPoseDict, ag_getAuxSharedPoseDictWithNeighbor. rewrite Hb, Hacc. cbn [negb check].
  split; [|split].
  - intros i Hi'. destruct (N.leb_spec (pg_n (a_pg a)) i); [unfold num_poses in Hi'; lia|].
    destruct (pa_pose_block _ _ _ _ _ HX Hi') as (v & -> & B). cbn. rewrite Hp in B. eauto.
  - destruct (pose_dict_spec _ _ I HX) as (D & -> & HD). cbn. eauto.
  - intros k. destruct (pose_dict_with_spec _ _ k I HX) as (D & -> & HD). cbn. eauto.
Qed.

Lemma c34_after_reset x id p os a a' : areach x id p os a -> ag_reset x a = Ok a' ->
  ag_shouldTerminate a' = Ok (orb (p_maxit p =? 0)%N (orb (cost_type_eqb (costType (p_robust p)) L2) (p_nwu p <=? 0)%Z)).
Proof.
  intros R E. pose proof (areach_inv _ _ _ _ _ R) as I. pose proof (reset_inv _ _ _ I E) as I'.
  destruct (hist_all _ _ _ _ _ R) as (_ & Hp & _).
  destruct (term_state _ I') as (b & -> & Hb). f_equal. apply reset_form in E. rewrite E in Hb. cbn in Hb. rewrite Hp in Hb.
  apply eq_true_iff_eq. rewrite Hb, !orb_true_iff, N.eqb_eq, Z.leb_le.
  assert (C : cost_type_eqb (costType (p_robust p)) L2 = true <-> costType (p_robust p) = L2)
    by (destruct (costType (p_robust p)); cbn; split; congruence).
  rewrite C. split; [intros [?|[? ?]]; [left; lia|auto]|].
  intros [->|D]; [left; lia|right]. split; auto. intros k Hk Hn. cbn in Hn.
  assert (Hr : nth_error (repeat false (N.to_nat (p_numRobots p))) (N.to_nat k) = Some false).
  { cbn in Hk. try rewrite Hp in Hk. clear - Hk. assert (L : (N.to_nat k < N.to_nat (p_numRobots p))%nat) by lia.
    revert L. generalize (N.to_nat k) (N.to_nat (p_numRobots p)). intros i n. revert i.
    induction n as [|n IH]; intros [|i] L; cbn; try lia; auto. apply IH. lia. }
  try rewrite Hp in Hn. congruence.
Qed.

Lemma store_total a k dict : forall c, (exists c', store_poses a k dict c = Ok c') \/ store_poses a k dict c = Abort.
Proof.
  unfold store_poses. induction dict as [|kv dict IH]; intros c; cbn [foldM]; [left; eauto|].
  destruct (robot_id (fst kv) =? k)%N; cbn [check bind]; auto.
  destruct (mrows (snd kv) =? p_r (a_params a))%nat; cbn [check bind]; auto.
  destruct (mcols (snd kv) =? p_d (a_params a) + 1)%nat; cbn [check bind]; auto.
  destruct (requireNeighborPose (a_pg a) (fst kv)); cbn [bind]; apply IH.
Qed.

Lemma c36_wrong x id p os a k dict q v : areach x id p os a -> a_state a = INITIALIZED -> receivable a k ->
  In (q, v) dict -> robot_id q <> k ->
  ag_updateNeighborPoses x a k dict = Abort /\ ag_updateAuxNeighborPoses a k dict = Abort.
Proof.
  intros R Hi Hr Hin Hq. assert (Hb : is_init a = true) by (apply is_init_eq; auto).
  apply nbr_ready_iff in Hr. unfold ag_updateNeighborPoses, ag_updateAuxNeighborPoses. rewrite Hr, Hb, Hi. cbn [negb state_eqb bind].
  split.
  - destruct (k =? a_id a)%N; cbn [negb check]; auto.
    rewrite Hb. cbn [negb].
    destruct (store_total a k dict (a_ndict a)) as [[c' Hc]| -> ]; auto.
    exfalso. exact (store_wrong a k dict (a_ndict a) (q, v) Hin Hq c' Hc).
  - destruct (p_accel (a_params a)); cbn [check]; auto. destruct (k =? a_id a)%N; cbn [negb check]; auto.
    destruct (store_total a k dict (a_naux a)) as [[c' Hc]| -> ]; auto.
    exfalso. exact (store_wrong a k dict (a_naux a) (q, v) Hin Hq c' Hc).
Qed.

Lemma c36_own x id p os a dict : areach x id p os a ->
  ag_updateNeighborPoses x a id dict = Abort /\ ag_updateAuxNeighborPoses a id dict = Abort.
Proof.
  intros R. destruct (hist_all _ _ _ _ _ R) as (<- & _). unfold ag_updateNeighborPoses, ag_updateAuxNeighborPoses.
  rewrite N.eqb_refl. cbn. destruct (p_accel (a_params a)); auto.
Qed.

Lemma c36_required x id p os a q v : areach x id p os a ->
  mfind pose_ltb q (a_ndict a) = Some v \/ mfind pose_ltb q (a_naux a) = Some v ->
  touches a q /\ mrows v = p_r p /\ mcols v = (p_d p + 1)%nat /\ a_state a = INITIALIZED.
Proof.
  intros R F. pose proof (areach_inv _ _ _ _ _ R) as I. destruct (hist_all _ _ _ _ _ R) as (_ & Hp & _).
  rewrite (touches_npub a q I), (require_npub _ _ (iv_pg _ I)).
  assert (Hst : a_state a = INITIALIZED).
  { destruct (a_state a) eqn:E; auto; destruct (iv_nd0 _ I) as [E1 E2]; try congruence; rewrite E1, E2 in F; cbn in F; destruct F; discriminate. }
  rewrite <- Hp. destruct F as [F|F]; [destruct (iv_nd _ I) as [_ Q]|destruct (iv_na _ I) as [_ Q]];
    destruct (Q _ _ F) as (A & B & C); auto.
Qed.

Lemma same_unless_map P l (f : Meas S -> Meas S) : (forall m, P m = false -> f m = m) -> same_unless P l (map f l).
Proof. intros Hf. unfold same_unless. induction l; cbn; constructor; auto. Qed.

Lemma c25_update x id p os a a' : areach x id p os a -> ag_updateMeasurementWeights a = Ok a' ->
  (a_state a <> INITIALIZED -> a' = a) /\
  (a_state a = INITIALIZED ->
   pg_odom (a_pg a') = pg_odom (a_pg a) /\ pg_priv (a_pg a') = map (reweighted a) (pg_priv (a_pg a)) /\
   pg_shared (a_pg a') = map (fun m => if lc_active a m then reweighted a m else m) (pg_shared (a_pg a))).
Proof.
  intros R E. pose proof (areach_inv _ _ _ _ _ R) as I. split.
  - intros Hs. apply is_init_neq in Hs. unfold ag_updateMeasurementWeights in E. rewrite Hs in E. cbn in E. congruence.
  - intros Hs. apply updWeights_exact; auto.
Qed.

Lemma c25_rest x id p os a a' : areach x id p os a -> a_state a = INITIALIZED -> ag_updateMeasurementWeights a = Ok a' ->
  a_rc a' = rc_update (a_rc a) /\
  pg_Q (a_pg a') = None /\ pg_G (a_pg a') = None /\ pg_precon (a_pg a') = None /\
  st_ready (a_status a') = false /\ a_team a' = [] /\ a_inner a' = 0%Z /\ a_lwu a' = a_iter a /\ a_iter a' = a_iter a /\
  a_wuc a' = (a_wuc a + 1)%Z /\ a_state a' = INITIALIZED /\ a_XInit a' = a_XInit a /\ a_TLocal a' = a_TLocal a /\ a_anchor a' = a_anchor a /\
  (if (a_trc a <? p_nreset p)%Z
   then a_trc a' = (a_trc a + 1)%Z /\ a_ndict a' = [] /\ a_naux a' = [] /\ a_XInit a = Some (a_X a')
   else a_trc a' = a_trc a /\ a_ndict a' = a_ndict a /\ a_naux a' = a_naux a /\ a_X a' = a_X a).
Proof.
  intros R Hs E. pose proof (areach_inv _ _ _ _ _ R) as I. destruct (hist_all _ _ _ _ _ R) as (_ & Hp & _).
  destruct (updWeights_cases _ _ E I) as [[Hn _]|(_ & ps & a1 & Q)]; [unfold is_init in Hn; rewrite Hs in Hn; discriminate|].
  decompose [and] Q. clear Q. rewrite <- Hp.
  match goal with H : a_pg a' = clearDataMatrices _ |- _ => rewrite H end.
  match goal with H : a_status a' = _ |- _ => rewrite H end.
  sp; try assumption; reflexivity.
Qed.

Lemma c25_fixed x id p os a a' : areach x id p os a ->
  ag_updateMeasurementWeights a = Ok a' \/ ag_initializeRobustOptimization a = Ok a' ->
  pg_odom (a_pg a') = pg_odom (a_pg a) /\
  same_unless (fun m => negb (mfixed m)) (pg_priv (a_pg a)) (pg_priv (a_pg a')) /\
  same_unless (fun m => negb (mfixed m) && lc_active a m) (pg_shared (a_pg a)) (pg_shared (a_pg a')).
Proof.
  intros R E. pose proof (areach_inv _ _ _ _ _ R) as I. destruct E as [E|E].
  - destruct (c25_update _ _ _ _ _ _ R E) as [E1 E2].
    destruct (a_state a) eqn:Es; try (rewrite E1 by congruence; split; [auto|split; [rewrite <- (map_id (pg_priv (a_pg a))) at 2|rewrite <- (map_id (pg_shared (a_pg a))) at 2]; apply same_unless_map; auto]).
    destruct E2 as (E2 & E3 & E4); auto. rewrite E2, E3, E4. split; auto. unfold reweighted. split; apply same_unless_map.
    + intros m Hm. apply negb_false_iff in Hm. rewrite Hm. auto.
    + intros m Hm. apply andb_false_iff in Hm. rewrite negb_false_iff in Hm. destruct Hm as [->| ->]; auto.
      destruct (lc_active a m); auto.
  - destruct (initRobust_exact _ _ I E) as (_ & E2 & E3 & E4). rewrite E2, E3, E4. split; auto. split; apply same_unless_map.
    + intros m Hm. apply negb_false_iff in Hm. rewrite Hm. auto.
    + intros m Hm. apply andb_false_iff in Hm. rewrite negb_false_iff in Hm. destruct Hm as [->| ->]; auto.
      destruct (lc_active a m); auto.
Qed.

Lemma c25_initRobust x id p os a a' : areach x id p os a -> ag_initializeRobustOptimization a = Ok a' ->
  a_rc a' = rc_reset (a_rc a) /\
  let f m := if mfixed m then m else set_mweight n1 m in
  pg_odom (a_pg a') = pg_odom (a_pg a) /\ pg_priv (a_pg a') = map f (pg_priv (a_pg a)) /\
  pg_shared (a_pg a') = map (fun m => if lc_active a m then f m else m) (pg_shared (a_pg a)).
Proof. intros R. apply initRobust_exact. exact (areach_inv _ _ _ _ _ R). Qed.

Lemma c37_still x id p os a opt b a' s : areach x id p os a -> p_accel p = false -> ag_iterate x opt a b = Ok (a', s) ->
  b = false \/ a_state a <> INITIALIZED \/ missing_pose a (a_ndict a) -> a_X a' = a_X a.
Proof.
  intros R Ha. pose proof (areach_inv _ _ _ _ _ R) as I. destruct (hist_all _ _ _ _ _ R) as (_ & Hp & _).
  apply iterate_still; auto. congruence.
Qed.

Lemma c37_fail x id p os a opt b a' s : areach x id p os a -> ag_iterate x opt a b = Ok (a', s) -> s = false ->
  a_state a = INITIALIZED /\ b = true /\ missing_pose a (if p_accel p then a_naux a else a_ndict a) /\ st_ready (a_status a') = false.
Proof.
  intros R E F. pose proof (areach_inv _ _ _ _ _ R) as I. destruct (hist_all _ _ _ _ _ R) as (_ & Hp & _).
  destruct (iterate_fail _ _ _ _ _ _ I E F) as (A & B & C & D). rewrite Hp in C. apply is_init_eq in A. auto.
Qed.

Lemma c39_restart x id p os a opt b a' s : areach x id p os a -> p_accel p = true -> a_state a = INITIALIZED ->
  ag_iterate x opt a b = Ok (a', s) ->
  p_restart p <> 0%N /\ a_iter a' = u32 (a_iter a + 1) /\
  (if (u32 (a_iter a' + 1) mod p_restart p =? 0)%N
   then a_V a' = a_X a' /\ a_Y a' = a_X a' /\ a_gamma a' = n0 /\ a_alpha a' = n0 /\ (b = false -> a_X a' = a_X a)
   else a_gamma a' = next_gamma (p_numRobots p) (a_gamma a) /\
        a_alpha a' = next_alpha (p_numRobots p) (next_gamma (p_numRobots p) (a_gamma a))).
Proof.
  intros R Ha Hs E. destruct (hist_all _ _ _ _ _ R) as (_ & Hp & _). subst p.
  destruct (iterate_restart _ _ _ _ _ _ Ha Hs E) as (A & B & C). auto.
Qed.

Lemma c39_zero x id p os a opt b r : areach x id p os a -> p_accel p = true -> a_state a = INITIALIZED ->
  p_restart p = 0%N -> ag_iterate x opt a b <> Ok r.
Proof.
  intros R Ha Hs Hz. destruct (hist_all _ _ _ _ _ R) as (_ & Hp & _). subst p. apply iterate_zero; auto.
Qed.

Lemma c42_reset x id p os a a' : areach x id p os a -> ag_reset x a = Ok a' ->
  a_state a' = WAIT_FOR_DATA /\ a_thread a' = false /\ a_inst a' = u32 (a_inst a + 1) /\
  a_iter a' = 0%N /\ a_lwu a' = 0%N /\ a_inner a' = 0%Z /\ a_wuc a' = 0%Z /\ a_trc a' = 0%Z /\
  a_XInit a' = None /\ a_TLocal a' = None /\ a_anchor a' = None /\ a_ndict a' = [] /\ a_naux a' = [] /\ a_team a' = [] /\
  a_pub a' = false /\ a_pubasync a' = false /\
  a_status a' = mkStatus id WAIT_FOR_DATA (u32 (a_inst a + 1)) 0 false n0 /\
  pg_Q (a_pg a') = None /\ pg_G (a_pg a') = None /\ pg_precon (a_pg a') = None /\ pg_nposes (a_pg a') = [] /\ pg_priors (a_pg a') = [] /\
  measurements (a_pg a') = measurements (a_pg a) /\ pg_n (a_pg a') = pg_n (a_pg a) /\
  a_id a' = a_id a /\ a_params a' = a_params a /\ a_YLift a' = a_YLift a /\ a_rc a' = a_rc a.
Proof.
  intros R E. destruct (hist_all _ _ _ _ _ R) as (<- & _). apply reset_form in E. rewrite E. cbn.
  repeat (split; [reflexivity|]). reflexivity.
Qed.

Lemma reset_runs x id p os a : areach x id p os a -> p_log p = false -> exists a', ag_reset x a = Ok a'.
Proof.
  intros R Hl. destruct (hist_all _ _ _ _ _ R) as (_ & Hp & _). unfold ag_reset.
  replace (p_log (a_params (ag_endOptimizationLoop a))) with false; [cbn; eauto|].
  rewrite endLoop_form. cbn. congruence.
Qed.

Lemma c50 x id p os a : areach x id p os a ->
  (forall k s, mfind N.ltb k (a_team a) = Some s -> st_id s = k) /\
  (exists b, ag_shouldTerminate a = Ok b) /\ (exists b, ag_shouldUpdateMeasurementWeights a = Ok b).
Proof.
  intros R. pose proof (areach_inv _ _ _ _ _ R) as I. split; [apply (iv_team _ I)|].
  destruct (term_state _ I) as (b & ? & _). destruct (upd_state _ I) as (b' & ? & _). eauto.
Qed.

End A.
