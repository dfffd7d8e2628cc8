(** Weight updates and the robust cost of a team's dataset (C66). *)
From Coq Require Import List NArith ZArith Bool Arith Lia Lra Reals Permutation.
From Verif Require Import Base SMap Num RSum ModelTypes ModelPoseGraph ModelProblem ModelRobust ModelPoses ModelSolver ModelAgent ModelExample ModelTeam
  SpecPoseGraph SpecPGHist SpecCost SpecRobust SpecAgent SpecRun SpecStatus SpecTeam SpecDescent SpecSolver SpecFrames SpecReweight
  ProofsPoseGraph ProofsPGHist ProofsPGData ProofsCost ProofsCost2 ProofsCost4 ProofsRobust ProofsInit4
  ProofsAgent ProofsAgent2 ProofsAgent3 ProofsAgent4 ProofsAgent5 ProofsAgent6 ProofsStatus ProofsExample ProofsRun ProofsRun2 ProofsRun3 ProofsRun5 ProofsResidual ProofsTeam ProofsTeam2 ProofsTeam3
  ProofsDescent ProofsDescent2.
Import ListNotations.
Local Open Scope res_scope.
Implicit Types (g : PoseGraph R) (a : Agent R) (t : Team R).

(** The measurement with the weight of its residual. *)
Definition fit (r d : nat) (c : RobustCost R) t (m : Meas R) : Meas R := if adaptive m then set_mweight (weight c (residual_at r d t m)) m else m.

Lemma fit_strip r d c t m : strip (fit r d c t m) = strip m.
Proof. unfold fit. destruct (adaptive m); reflexivity. Qed.
Lemma fit_ids r d c t m : mr1 (fit r d c t m) = mr1 m /\ mr2 (fit r d c t m) = mr2 m /\ mp1 (fit r d c t m) = mp1 m /\ mp2 (fit r d c t m) = mp2 m.
Proof. unfold fit. destruct (adaptive m); auto. Qed.
Lemma reweight_useinact ps : forall a a', foldM reweight_one a ps = Ok a' -> pg_useinact (a_pg a') = pg_useinact (a_pg a).
Proof.
  induction ps as [|p ps IH]; cbn; intros a a' E; [okinv E; reflexivity|]. destruct (reweight_one a p) as [a1| |] eqn:E1; cbn [bind] in E; try discriminate.
  rewrite (IH _ _ E). clear E IH. unfold reweight_one in E1. destruct (deref (a_pg a) p) as [m|]; [|discriminate]. destruct (mfixed m); [injection E1 as <-; reflexivity|].
  destruct (ag_residual a m) as [[w|]| |]; cbn [bind] in E1; try discriminate; injection E1 as <-; [|reflexivity]. destruct p; reflexivity.
Qed.

Section U.
Context (x : Ext R) (r d : nat) (m : N) (P : N -> AgentParams R).

(** The residual an agent computes is that of the team's estimates. *)
Lemma residual_here os t k a e : treach x P m os t -> robot t k a -> p_r (P k) = r -> p_d (P k) = d -> a_state a = INITIALIZED -> uptodate r d t k -> In e (pg_priv (a_pg a) ++ pg_shared (a_pg a)) ->
  ag_residual a e = Ok (Some (residual_at r d t e)).
Proof.
  intros R K Pr Pd Hs UD He. destruct (ti_agent _ _ _ _ _ (tinv _ _ _ _ _ R) k a K) as (l & Rl & _). destruct (robot_id_of _ _ _ _ _ _ _ (tinv _ _ _ _ _ R) K) as (Ia & Pa & I).
  destruct (iv_X _ I ltac:(congruence)) as [_ AX]. rewrite Pa, Pr, Pd in AX. assert (Hd : pa_d (a_X a) = d) by (apply AX). pose proof (iv_pg _ I) as W.
  rewrite (residual_value x k (P k) l a e Rl Hs) by (unfold measurements; rewrite !in_app_iff in *; tauto). rewrite Pr, Pd.
  assert (Own : forall f, known_pose a (mkPoseID k f) = Some (pblk (a_X a) (N.to_nat f))) by (intros f; unfold known_pose; cbn [robot_id frame_id]; rewrite Ia, N.eqb_refl; reflexivity).
  assert (OwnV : forall f u c, (u < r)%nat -> (c <= d)%nat -> pblk (a_X a) (N.to_nat f) u c = pose_blk d (est t k) (N.to_nat f) u c).
  { intros f u c _ _. rewrite (est_at _ _ _ K). unfold pblk, pose_blk. rewrite Hd. f_equal. lia. }
  assert (Oth : In e (pg_shared (a_pg a)) -> exists F, known_pose a (other_pose k e) = Some F /\
     forall u c, (u < r)%nat -> (c <= d)%nat -> F u c = pose_blk d (est t (robot_id (other_pose k e))) (N.to_nat (frame_id (other_pose k e))) u c).
  { intros Hsh. destruct (UD a e K Hsh) as (b & Kb & v & Fv & _ & _ & Bv). exists (Num.mat v). split.
    - unfold known_pose. rewrite Fv, Ia. destruct (own_pose_in a e I Hsh) as (_ & _ & _ & Hk). rewrite Ia in Hk. unfold other_pose.
      destruct (shared_ends k e Hk) as [[E1 E2]|[E1 E2]]; destruct (N.eqb_spec (mr1 e) k); try congruence; cbn [robot_id]; [destruct (N.eqb_spec (mr2 e) k)|destruct (N.eqb_spec (mr1 e) k)]; congruence.
    - intros u c Hu Hc. rewrite (est_at _ _ _ Kb). rewrite Bv by lia. unfold pose_blk. f_equal. lia. }
  unfold residual_at, central_edge. cbn [mr1 mr2 mp1 mp2 set_mweight]. apply in_app_iff in He. destruct He as [Hp|Hsh].
  - pose proof (wf_priv _ W _ Hp) as Q. rewrite (iv_id _ I), Ia in Q. unfold is_priv in Q. destruct (N.eqb_spec (mr1 e) k) as [E1|]; [|discriminate]. destruct (N.eqb_spec (mr2 e) k) as [E2|]; [|discriminate].
    rewrite E1, E2, !Own. do 3 f_equal. apply edge_cost_ext; auto.
  - destruct (Oth Hsh) as (F & EF & VF). destruct (own_pose_in a e I Hsh) as (_ & _ & _ & Hk). rewrite Ia in Hk. unfold other_pose in *.
    destruct (shared_ends k e Hk) as [[E1 E2]|[E1 E2]]; destruct (N.eqb_spec (mr1 e) k); try congruence; cbn [robot_id frame_id] in *.
    + rewrite E1, EF, Own. do 3 f_equal. apply edge_cost_ext; auto.
    + rewrite E1, EF, Own. do 3 f_equal. apply edge_cost_ext; auto.
Qed.

(** One robot's update. *)
Lemma update_member os t k a a' M Pri c : treach x P m os t -> robot t k a -> comrade r d M Pri k (P k) a -> a_rc a = c -> (p_nreset (P k) <= a_trc a)%Z -> uptodate r d t k ->
  ag_updateMeasurementWeights a = Ok a' ->
  member r d (map (fit r d c t) M) Pri k (P k) a' /\ a_X a' = a_X a /\ a_rc a' = rc_update c /\ a_trc a' = a_trc a /\
  pg_odom (a_pg a') = map (fit r d c t) (pg_odom (a_pg a)) /\ pg_priv (a_pg a') = map (fit r d c t) (pg_priv (a_pg a)) /\ pg_shared (a_pg a') = map (fit r d c t) (pg_shared (a_pg a)).
Proof.
  intros R K [C1 C2 C3 C4 C5 C6 C7 C8 C9 C10] Ec Tr UD E. destruct (ti_agent _ _ _ _ _ (tinv _ _ _ _ _ R) k a K) as (l & Rl & _). destruct (robot_id_of _ _ _ _ _ _ _ (tinv _ _ _ _ _ R) K) as (Ia & Pa & I).
  pose proof (iv_pg _ I) as W. pose proof (iv_id _ I) as Wi. rewrite Ia in Wi.
  destruct (proj2 (c25_update _ _ _ _ _ _ Rl E) C4) as (O1 & O2 & O3).
  destruct (c25_rest _ _ _ _ _ _ Rl C4 E) as (Q1 & Q2 & Q3 & _ & _ & _ & _ & _ & _ & _ & Q4 & _ & _ & _ & Q5).
  destruct (Z.ltb_spec (a_trc a) (p_nreset (P k))); [lia|]. destruct Q5 as (T1 & _ & _ & T2).
  destruct (updWeights_cases _ _ E I) as [[Hn _]|(_ & ps & a1 & Q)]; [unfold is_init in Hn; rewrite C4 in Hn; discriminate|].
  destruct Q as (_ & Ef & _ & _ & _ & _ & Epg & _). destruct (reweights_form _ _ _ Ef) as [_ WE]. pose proof (reweight_useinact _ _ _ Ef) as UI.
  assert (F1 : pg_odom (a_pg a') = map (fit r d c t) (pg_odom (a_pg a))).
  { rewrite O1. rewrite <- (map_id (pg_odom (a_pg a))) at 1. apply map_ext_in. intros e He. pose proof (wf_odom _ W _ He) as Q. rewrite Wi in Q. unfold is_odom in Q. apply andb_true_iff in Q. destruct Q as [Q Q']. apply andb_true_iff in Q. destruct Q as [Qa Qb].
    apply N.eqb_eq in Qa, Qb. unfold fit, adaptive. rewrite Q', Qa, Qb, N.eqb_refl. reflexivity. }
  assert (RW : forall e, In e (pg_priv (a_pg a) ++ pg_shared (a_pg a)) -> adaptive e = negb (mfixed e) -> reweighted a e = fit r d c t e).
  { intros e He Ad. unfold reweighted, fit. rewrite Ad. destruct (mfixed e); [reflexivity|]. cbn [negb]. rewrite (residual_here os t k a e R K C1 C2 C4 UD He). rewrite Ec. reflexivity. }
  assert (F2 : pg_priv (a_pg a') = map (fit r d c t) (pg_priv (a_pg a))).
  { rewrite O2. apply map_ext_in. intros e He. apply RW; [apply in_app_iff; auto|]. pose proof (wf_priv _ W _ He) as Q. rewrite Wi in Q. unfold is_priv in Q. apply andb_true_iff in Q. destruct Q as [Q Q']. apply negb_true_iff in Q'.
    unfold adaptive. rewrite Q', andb_false_r. reflexivity. }
  assert (F3 : pg_shared (a_pg a') = map (fit r d c t) (pg_shared (a_pg a))).
  { rewrite O3. apply map_ext_in. intros e He. assert (LA : lc_active a e = true) by (unfold lc_active; rewrite Ia, (C10 e He); reflexivity). rewrite LA. apply RW; [apply in_app_iff; auto|].
    pose proof (wf_shared _ W _ He) as Q. rewrite Wi in Q. unfold adaptive. destruct (shared_ends k e Q) as [[A B]|[A B]]; destruct (N.eqb_spec (mr1 e) (mr2 e)); try congruence; reflexivity. }
  split; [|rewrite <- Ec; repeat split; auto; rewrite Ec; assumption].
  assert (Wq : pg_priors (a_pg a') = pg_priors (a_pg a) /\ pg_useinact (a_pg a') = pg_useinact (a_pg a) /\ pg_n (a_pg a') = pg_n (a_pg a) /\ pg_nbrs (a_pg a') = pg_nbrs (a_pg a) /\ pg_active (a_pg a') = pg_active (a_pg a)).
  { rewrite Epg. destruct WE. repeat split; assumption. }
  destruct Wq as (W1 & W2 & W3 & W4 & W5). constructor; auto; try congruence.
  - unfold knows. rewrite F1, F2, F3, <- !map_app, filter_map_comm. rewrite (filter_ext _ (SpecCost.touches k)); [apply Permutation_map; exact C5|].
    intros e. destruct (fit_ids r d c t e) as (A & B & _). unfold SpecCost.touches. rewrite A, B. reflexivity.
  - intros e He. rewrite F1, F2, <- map_app in He. apply in_map_iff in He. destruct He as (e0 & <- & He). destruct (fit_ids r d c t e0) as (_ & _ & A & B). rewrite A, B. apply C8, He.
  - destruct C9 as (e0 & He & Q). exists (fit r d c t e0). destruct (fit_ids r d c t e0) as (_ & _ & A & B). rewrite A, B, W3, F1, F2, <- map_app. split; [apply in_map; exact He|exact Q].
  - intros e He. rewrite F3 in He. apply in_map_iff in He. destruct He as (e0 & <- & He). destruct (fit_ids r d c t e0) as (A & B & _). unfold other_robot. rewrite A, B.
    specialize (C10 e0 He). unfold other_robot in C10. unfold isNeighborActive, hasNeighbor in *. rewrite W4, W5. exact C10.
Qed.

(** All robots' updates. *)
Lemma reweights_run ks : forall os t t1, treach x P m os t -> NoDup ks -> (forall k a, In k ks -> robot t k a -> a_state a = INITIALIZED /\ (p_nreset (P k) <= a_trc a)%Z) ->
  tm_run x t (reweights ks) = Ok t1 -> treach x P m (os ++ reweights ks) t1 /\ est t1 = est t /\
    forall k a1, robot t1 k a1 -> exists a0, robot t k a0 /\ (In k ks -> ag_updateMeasurementWeights a0 = Ok a1) /\ (~ In k ks -> a1 = a0).
Proof.
  induction ks as [|k ks IH]; intros os t t1 R ND H E.
  - cbn in E. injection E as <-. rewrite app_nil_r. split; [exact R|]. split; [reflexivity|]. intros k a K. exists a. split; auto. split; [intros []|auto].
  - inversion ND as [|? ? Nk ND']; subst. cbn [reweights map tm_run foldM] in E. unfold tm_run in E. cbn [foldM] in E. destruct (tm_step x t (TCall k AUpdWeights)) as [t2| |] eqn:E2; cbn [bind] in E; try discriminate.
    assert (R2 : treach x P m (os ++ [TCall k AUpdWeights]) t2) by (apply (treach_step x m P os t); auto; exact Logic.I).
    cbn [tm_step ag_step] in E2. dres E2. apply tm_at_Ok in E0. rename E0 into K, y into a, y0 into a2, E1 into Eu. injection E2 as <-.
    destruct (H k a (or_introl eq_refl) K) as [Hs Tr]. destruct (ti_agent _ _ _ _ _ (tinv _ _ _ _ _ R) k a K) as (l & Rl & _).
    destruct (c25_rest _ _ _ _ _ _ Rl Hs Eu) as (_ & _ & _ & _ & _ & _ & _ & _ & _ & _ & _ & _ & _ & _ & Q). destruct (Z.ltb_spec (a_trc a) (p_nreset (P k))); [lia|]. destruct Q as (_ & _ & _ & QX).
    destruct (IH _ (tm_put t k a2) t1 R2 ND') as (R3 & X3 & Q3); [|exact E|].
    { intros j b Hj Kb. apply put_robot in Kb. destruct Kb as [[-> _]|[_ Kb]]; [contradiction|]. apply H; [right; auto|auto]. }
    rewrite <- app_assoc in R3. split; [exact R3|]. split; [rewrite X3; apply (est_put t k a a2 K QX)|].
    intros j b Kb. destruct (Q3 j b Kb) as (b0 & Kb0 & U1 & U2). apply put_robot in Kb0. destruct Kb0 as [[-> ->]|[Nj Kb0]].
    + exists a. split; [exact K|]. split; [intros _|intros N; exfalso; apply N; left; reflexivity]. rewrite (U2 Nk). exact Eu.
    + exists b0. split; [exact Kb0|]. split; [intros [Eq|Hj]; [congruence|auto]|]. intros N. apply U2. intros Hj. apply N. right. exact Hj.
Qed.
End U.

(** ** Majorisation *)
Lemma central_weight r d X w (e : Meas R) : central_edge r d X (set_mweight w e) = (w * central_edge r d X (set_mweight 1%R e))%R.
Proof. unfold central_edge, edge_cost. cbn [mweight mkappa mtau mR mt mr1 mr2 mp1 mp2 set_mweight]. ring. Qed.
Lemma central_nonneg r d X (e : Meas R) : (0 <= mkappa e)%R -> (0 <= mtau e)%R -> (0 <= central_edge r d X (set_mweight 1%R e))%R.
Proof. intros. apply edge_nonneg. repeat split; cbn; try assumption; lra. Qed.

Lemma edge_majorised r d c t0 t (e : Meas R) : pos_params (rc_params c) (rc_mu c) -> (0 <= mkappa e)%R -> (0 <= mtau e)%R ->
  (costType (rc_params c) = L1 -> adaptive e = true -> (0 < residual_at r d t0 e)%R) ->
  (robust_edge r d c t e <= robust_edge r d c t0 e + / 2 * (central_edge r d (est t) (fit r d c t0 e) - central_edge r d (est t0) (fit r d c t0 e)))%R.
Proof.
  intros Hp Hk Ht HL. unfold robust_edge, fit. destruct (adaptive e) eqn:Ad; [|lra].
  pose proof (central_nonneg r d (est t) e Hk Ht) as N1. pose proof (central_nonneg r d (est t0) e Hk Ht) as N0.
  rewrite (central_weight r d (est t)), (central_weight r d (est t0)).
  assert (S1 : central_edge r d (est t) (set_mweight 1%R e) = (residual_at r d t e * residual_at r d t e)%R) by (unfold residual_at; rewrite sqrt_sqrt; auto).
  assert (S0 : central_edge r d (est t0) (set_mweight 1%R e) = (residual_at r d t0 e * residual_at r d t0 e)%R) by (unfold residual_at; rewrite sqrt_sqrt; auto).
  rewrite S1, S0. destruct c as [p it mu]. cbn [rc_params rc_mu] in *.
  pose proof (majorised p mu it (residual_at r d t0 e) (residual_at r d t e) Hp (sqrt_pos _) (sqrt_pos _) (fun El => HL El eq_refl)) as Q. lra.
Qed.

Lemma rsumL_le {A} (f h : A -> R) l : (forall e, In e l -> (f e <= h e)%R) -> (nsumL f l <= nsumL h l)%R.
Proof. induction l as [|e l IH]; intros H; [rewrite !rsumL_nil; lra|]. rewrite !rsumL_cons. pose proof (H e (or_introl eq_refl)). pose proof (IH (fun u Hu => H u (or_intror Hu))). lra. Qed.

Lemma cost_majorised r d c M Pri ids t0 t : pos_params (rc_params c) (rc_mu c) -> (forall e, In e M -> (0 <= mkappa e)%R /\ (0 <= mtau e)%R) -> off_zero r d c M t0 ->
  (robust_team_cost r d c M Pri ids t - robust_team_cost r d c M Pri ids t0 <=
   team_cost r d (map (fit r d c t0) M) Pri ids t - team_cost r d (map (fit r d c t0) M) Pri ids t0)%R.
Proof.
  intros Hp Hk HL. unfold robust_team_cost, team_cost, central_cost. rewrite !rsumL_map.
  assert (Q : (nsumL (robust_edge r d c t) M <= nsumL (fun e => robust_edge r d c t0 e + / 2 * (central_edge r d (est t) (fit r d c t0 e) - central_edge r d (est t0) (fit r d c t0 e))) M)%R).
  { apply rsumL_le. intros e He. destruct (Hk e He). apply edge_majorised; auto. }
  rewrite rsumL_add, rsumL_scal, rsumL_sub in Q. lra.
Qed.

(** ** One round *)
Theorem robust_round x r d m P M Pri c os0 t0 ks t1 os t : treach x P m os0 t0 -> staged r d M Pri P c t0 -> (forall j, uptodate r d t0 j) -> Permutation ks (range 0 m) ->
  pos_params (rc_params c) (rc_mu c) -> (forall e, In e M -> (0 <= mkappa e)%R /\ (0 <= mtau e)%R) -> off_zero r d c M t0 ->
  tm_run x t0 (reweights ks) = Ok t1 -> Forall (top_ok P) os -> careful r d x t1 os -> tm_run x t1 os = Ok t ->
  (robust_team_cost r d c M Pri (range 0 m) t <= robust_team_cost r d c M Pri (range 0 m) t0)%R.
Proof.
  intros R ST UD PM Hp Hk HL E1 F Q E.
  assert (ND : NoDup ks) by (apply (Permutation_NoDup (Permutation_sym PM)), range_NoDup).
  destruct (reweights_run x m P ks os0 t0 t1 R ND) as (R1 & X1 & U); [|exact E1|].
  { intros k a _ K. destruct (ST k a K) as (C & _ & Tr). split; [apply C|exact Tr]. }
  assert (MB : forall k a, robot t1 k a -> member r d (map (fit r d c t0) M) Pri k (P k) a).
  { intros k a1 K1. destruct (U k a1 K1) as (a0 & K0 & U1 & _). destruct (ST k a0 K0) as (C & Ec & Tr).
    assert (Hk' : In k ks). { apply (Permutation_in _ (Permutation_sym PM)), range_In. split; [lia|]. assert (N.to_nat k < length (tm_agents t0))%nat by (apply nth_error_Some; unfold robot in K0; congruence). rewrite (ti_len _ _ _ _ _ (tinv _ _ _ _ _ R)) in H. lia. }
    apply (update_member x r d m P os0 t0 k a0 a1 M Pri c R K0 C Ec Tr (UD k) (U1 Hk')). }
  pose proof (team_descends x r d m P _ Pri _ t1 os t R1 MB F Q E) as D.
  assert (D0 : team_cost r d (map (fit r d c t0) M) Pri (range 0 m) t1 = team_cost r d (map (fit r d c t0) M) Pri (range 0 m) t0) by (unfold team_cost; rewrite X1; reflexivity).
  pose proof (cost_majorised r d c M Pri (range 0 m) t0 t Hp Hk HL). lra.
Qed.

(** ** Many rounds *)
(** The careful calls leave the stage of the robust optimisation alone. *)
Lemma careful_stage1 x r d P m os t o t' : treach x P m os t -> (forall k a, robot t k a -> a_state a = INITIALIZED) -> careful1 r d t o -> tm_step x t o = Ok t' ->
  forall k a', robot t' k a' -> exists a, robot t k a /\ a_rc a' = a_rc a /\ a_trc a' = a_trc a.
Proof.
  intros R Ini Q E. assert (Put : forall t k a a', robot t k a -> a_rc a' = a_rc a -> a_trc a' = a_trc a -> forall j b, robot (tm_put t k a') j b -> exists a, robot t j a /\ a_rc b = a_rc a /\ a_trc b = a_trc a).
  { intros s k a a' K E1 E2 j b Kb. apply put_robot in Kb. destruct Kb as [[-> ->]|[_ Kb]]; eauto. }
  destruct o as [k o|k aux to|k|j i|j i]; cbn [tm_step] in E.
  - dres E. apply tm_at_Ok in E0. rename E0 into K, y into a, y0 into a', E1 into Es. injection E as <-. destruct (robot_id_of _ _ _ _ _ _ _ (tinv _ _ _ _ _ R) K) as (_ & _ & I).
    apply (Put t k a a' K); destruct o; cbn [careful1] in Q; try contradiction; cbn [ag_step] in Es; try (injection Es as <-; reflexivity).
    all: try (unfold ag_startOptimizationLoop in Es; dres Es; destruct (a_thread a); injection Es as <-; reflexivity).
    all: try (unfold ag_endOptimizationLoop in Es; injection Es as <-; destruct (a_thread a); reflexivity).
    all: try (unfold ag_clearActiveNeighborPoses in Es; dres Es; injection Es as <-; reflexivity).
    all: try (destruct (a_thread a); [|injection Es as <-; reflexivity]).
    all: destruct (ag_iterate x opt a _) as [[a2 s]| |] eqn:Ei in Es; cbn [bind] in Es; try discriminate; injection Es as <-; destruct (iterate_all _ _ _ _ _ _ Ei I) as (_ & Fr & _); unfold iter_frame in Fr; tauto.
  - dres E. destruct y0 as [D|]; injection E as <-; intros j b Kb; exists b; auto.
  - dres E. cbn [ag_step] in E1. injection E1 as <-. injection E as <-. apply tm_at_Ok in E0. exact (Put t k y (ag_getStatus y) E0 eq_refl eq_refl).
  - destruct (nth_error (tm_poses t) i) as [msg|]; [|discriminate]. dres E. apply tm_at_Ok in E0. rename E0 into K, y into a, y0 into a', E1 into Es. injection E as <-.
    pose proof (Ini j a K) as Hs. assert (Hi : is_init a = true) by (apply is_init_eq; auto).
    assert (QQ : a_rc a' = a_rc a /\ a_trc a' = a_trc a); [|destruct QQ; apply (Put t j a a'); auto].
    destruct (pm_aux msg); cbn [ag_step] in Es.
    + unfold ag_updateAuxNeighborPoses in Es. dres Es. repeat match type of Es with context [if ?c then _ else _] => destruct c; try discriminate end; dres Es; injection Es as <-; auto.
    + unfold ag_updateNeighborPoses in Es. destruct (negb (pm_from msg =? a_id a)%N); cbn [check] in Es; [|discriminate].
      destruct (nbr_ready a (pm_from msg)); cbn [negb] in Es; [|injection Es as <-; auto].
      rewrite Hs in Es. cbn [state_eqb bind] in Es. rewrite Hi in Es. cbn [negb] in Es. dres Es. injection Es as <-. auto.
  - destruct (nth_error (tm_status t) i) as [st|]; [|discriminate]. dres E. cbn [ag_step bind] in E. apply tm_at_Ok in E0. injection E1 as <-. injection E as <-. apply (Put t j y); auto.
Qed.

Lemma careful_stage x r d m P M Pri osb tb : treach x P m osb tb -> (forall k a, robot tb k a -> member r d M Pri k (P k) a) ->
  forall os osr t t', treach x P m osr t -> core tb t -> Forall (top_ok P) os -> careful r d x t os -> tm_run x t os = Ok t' ->
  treach x P m (osr ++ os) t' /\ core tb t' /\ forall k a', robot t' k a' -> exists a, robot t k a /\ a_rc a' = a_rc a /\ a_trc a' = a_trc a.
Proof.
  intros Rb MB. induction os as [|o os IH]; intros osr t t' R C F Q E.
  - cbn in E. injection E as <-. rewrite app_nil_r. split; auto. split; auto. intros k a K. eauto.
  - unfold tm_run in E. cbn [foldM] in E. destruct (tm_step x t o) as [t1| |] eqn:E1; cbn [bind] in E; try discriminate. destruct Q as [Q1 Q2]. inversion F; subst.
    destruct (core_step x r d m P M Pri osb tb Rb MB osr t o t1 R C Q1 E1) as [C1 _].
    destruct (IH (osr ++ [o]) t1 t' (treach_step x m P _ _ _ _ R H1 E1) C1 H2 (Q2 t1 E1) E) as (R2 & C2 & S2). rewrite <- app_assoc in R2. split; [exact R2|]. split; [exact C2|].
    intros k a' K'. destruct (S2 k a' K') as (a1 & K1 & A1 & A2). destruct (careful_stage1 x r d P m osr t o t1 R (fun k a K => proj1 (C k a K)) Q1 E1 k a1 K1) as (a & K & B1 & B2). exists a. split; auto. split; congruence.
Qed.

(** Changing the weights of adaptive measurements does not change the robust cost. *)
Definition refit (f : Meas R -> Meas R) : Prop := forall e, f e = e \/ (adaptive e = true /\ exists w, f e = set_mweight w e).
Lemma refit_adaptive f e : refit f -> adaptive (f e) = adaptive e.
Proof. intros H. destruct (H e) as [->|(_ & w & ->)]; reflexivity. Qed.
Lemma refit_residual f r d t e : refit f -> residual_at r d t (f e) = residual_at r d t e.
Proof. intros H. destruct (H e) as [->|(_ & w & ->)]; reflexivity. Qed.
Lemma refit_cost f r d c M Pri ids t : refit f -> robust_team_cost r d c (map f M) Pri ids t = robust_team_cost r d c M Pri ids t.
Proof.
  intros H. unfold robust_team_cost. rewrite rsumL_map. f_equal. apply rsumL_ext. intros e _. unfold robust_edge. rewrite (refit_adaptive f e H), (refit_residual f r d t e H).
  destruct (H e) as [->|(-> & w & _)]; reflexivity.
Qed.
Lemma fit_refit f r d c t : refit f -> refit (fun e => fit r d c t (f e)).
Proof.
  intros H e. unfold fit. rewrite (refit_adaptive f e H), (refit_residual f r d t e H). destruct (H e) as [->|(A & w & ->)].
  - destruct (adaptive e) eqn:A; [right; split; auto; eexists; reflexivity|left; reflexivity].
  - rewrite A. right. split; auto. eexists. reflexivity.
Qed.
Lemma refit_precision f e : refit f -> mkappa (f e) = mkappa e /\ mtau (f e) = mtau e.
Proof. intros H. destruct (H e) as [->|(_ & w & ->)]; auto. Qed.

(** The stage matters only through the parameters and mu. *)
Lemma robust_cost_stage r d c c' M Pri ids t : rc_params c' = rc_params c -> rc_mu c' = rc_mu c -> robust_team_cost r d c' M Pri ids t = robust_team_cost r d c M Pri ids t.
Proof. intros E1 E2. unfold robust_team_cost. f_equal. apply rsumL_ext. intros e _. unfold robust_edge. rewrite E1, E2. reflexivity. Qed.
Lemma update_params (c : RobustCost R) : rc_params (rc_update c) = rc_params c.
Proof. unfold rc_update. destruct (negb _); [reflexivity|]. destruct (_ <? _)%N; reflexivity. Qed.
Lemma updates_shift (c : RobustCost R) n : rc_updates n (rc_update c) = rc_updates (S n) c.
Proof. induction n as [|n IH]; [reflexivity|]. cbn [rc_updates]. rewrite IH. reflexivity. Qed.

Lemma run_app x t os1 os2 t' : tm_run x t (os1 ++ os2) = Ok t' -> exists t1, tm_run x t os1 = Ok t1 /\ tm_run x t1 os2 = Ok t'.
Proof. unfold tm_run. rewrite foldM_app. intros E. destruct (foldM (tm_step x) t os1) as [t1| |]; cbn [bind] in E; try discriminate. eauto. Qed.

Section Rounds.
Context (x : Ext R) (r d : nat) (m : N) (P : N -> AgentParams R) (M : list (Meas R)) (Pri : N -> list (N * Mx R)) (c0 : RobustCost R).
Hypothesis (Hp : pos_params (rc_params c0) (rc_mu c0)) (Hk : forall e, In e M -> (0 <= mkappa e)%R /\ (0 <= mtau e)%R).

Lemma rounds_descend rs : forall f c os t t', refit f -> rc_params c = rc_params c0 -> rc_mu c = rc_mu c0 -> (forall n, (n < length rs)%nat -> rc_mu (rc_updates n c) = rc_mu c0) ->
  treach x P m os t -> staged r d (map f M) Pri P c t -> reweighing r d x P m c0 M t rs -> tm_run x t (rounds_of rs) = Ok t' ->
  (robust_team_cost r d c0 M Pri (range 0 m) t' <= robust_team_cost r d c0 M Pri (range 0 m) t)%R.
Proof.
  induction rs as [|[ks so] rs IH]; intros f c os t t' Hf Ep Em Hn R ST RW E; [cbn in E; injection E as <-; lra|].
  destruct RW as (PM & UD & OZ & F & RW). cbn [rounds_of flat_map fst snd] in E. apply run_app in E. destruct E as (t2 & E & E3). apply run_app in E. destruct E as (t1 & E1 & E2).
  destruct (RW t1 E1) as [CF RW2]. specialize (RW2 t2 E2).
  assert (Hp' : pos_params (rc_params c) (rc_mu c)) by (rewrite Ep, Em; exact Hp).
  assert (Hk' : forall e, In e (map f M) -> (0 <= mkappa e)%R /\ (0 <= mtau e)%R).
  { intros e He. apply in_map_iff in He. destruct He as (e0 & <- & He). destruct (refit_precision f e0 Hf) as [-> ->]. auto. }
  assert (OZ' : off_zero r d c (map f M) t).
  { intros El e He Ad. apply in_map_iff in He. destruct He as (e0 & <- & He). rewrite (refit_residual f r d t e0 Hf). rewrite (refit_adaptive f e0 Hf) in Ad. apply OZ; auto. congruence. }
  pose proof (robust_round x r d m P (map f M) Pri c os t ks t1 so t2 R ST UD PM Hp' Hk' OZ' E1 F CF E2) as D1.
  rewrite !(refit_cost f) in D1 by exact Hf. rewrite !(robust_cost_stage r d c0 c) in D1 by assumption.
  (* the state after the round *)
  assert (ND : NoDup ks) by (apply (Permutation_NoDup (Permutation_sym PM)), range_NoDup).
  destruct (reweights_run x m P ks os t t1 R ND) as (R1 & X1 & U); [|exact E1|].
  { intros k a _ K. destruct (ST k a K) as (C & _ & Tr). split; [apply C|exact Tr]. }
  assert (MB : forall k a, robot t1 k a -> member r d (map (fit r d c t) (map f M)) Pri k (P k) a /\ a_rc a = rc_update c /\ (p_nreset (P k) <= a_trc a)%Z).
  { intros k a1 K1. destruct (U k a1 K1) as (a0 & K0 & U1 & _). destruct (ST k a0 K0) as (C & Ec & Tr).
    assert (Hk2 : In k ks). { apply (Permutation_in _ (Permutation_sym PM)), range_In. split; [lia|]. assert (N.to_nat k < length (tm_agents t))%nat by (apply nth_error_Some; unfold robot in K0; congruence). rewrite (ti_len _ _ _ _ _ (tinv _ _ _ _ _ R)) in H. lia. }
    destruct (update_member x r d m P os t k a0 a1 (map f M) Pri c R K0 C Ec Tr (UD k) (U1 Hk2)) as (Q1 & _ & Q2 & Q3 & _). split; auto. split; auto. rewrite Q3. exact Tr. }
  assert (MB1 : forall k a, robot t1 k a -> member r d (map (fit r d c t) (map f M)) Pri k (P k) a) by (intros k a K; apply (MB k a K)).
  destruct (careful_stage x r d m P _ Pri _ t1 R1 MB1 so _ t1 t2 R1 (core0 x r d m P _ Pri _ t1 R1 MB1) F CF E2) as (R2 & C2 & S2).
  assert (ST2 : staged r d (map (fun e => fit r d c t (f e)) M) Pri P (rc_update c) t2).
  { intros k a2 K2. destruct (S2 k a2 K2) as (a1 & K1 & A1 & A2). destruct (MB k a1 K1) as (B1 & B2 & B3). destruct (C2 k a2 K2) as (Hs & a0 & K0 & L).
    assert (a0 = a1) by (unfold robot in *; congruence). subst a0. rewrite A1, A2. split; [|split; assumption].
    destruct (like_fields _ _ L) as (L1 & L2 & L3 & L4 & _ & L6 & _ & _ & _ & L10 & L11 & _). rewrite map_map in B1. destruct B1 as [D1' D2 D3 D4 D5 D6 D7 D8 D9 D10 _ _]. constructor; auto.
    - unfold knows. rewrite L2, L3, L4. exact D5.
    - congruence.
    - congruence.
    - intros e He. rewrite L2, L3 in He. apply D8; auto.
    - destruct D9 as (e & He & Q). exists e. rewrite L2, L3, L6. auto.
    - intros e He. rewrite L4 in He. rewrite (like_active _ _ _ L). auto. }
  pose proof (IH (fun e => fit r d c t (f e)) (rc_update c) ((os ++ reweights ks) ++ so) t2 t' (fit_refit f r d c t Hf)) as D2.
  destruct rs as [|ko rs].
  - cbn in E3. injection E3 as <-. exact D1.
  - assert (D3 : (robust_team_cost r d c0 M Pri (range 0 m) t' <= robust_team_cost r d c0 M Pri (range 0 m) t2)%R).
    { apply (D2); auto.
      - rewrite update_params. exact Ep.
      - exact (Hn 1%nat ltac:(cbn; lia)).
      - intros n Hl. rewrite updates_shift. apply Hn. cbn in *. lia.
      }
    lra.
Qed.
End Rounds.

Lemma map_self {A} (l : list A) : map (fun e => e) l = l.
Proof. apply map_id. Qed.
Theorem robust_rounds x r d m P M Pri c os t rs t' : treach x P m os t -> staged r d M Pri P c t ->
  pos_params (rc_params c) (rc_mu c) -> (forall e, In e M -> (0 <= mkappa e)%R /\ (0 <= mtau e)%R) ->
  (forall n, (n < length rs)%nat -> rc_mu (rc_updates n c) = rc_mu c) ->
  reweighing r d x P m c M t rs -> tm_run x t (rounds_of rs) = Ok t' ->
  (robust_team_cost r d c M Pri (range 0 m) t' <= robust_team_cost r d c M Pri (range 0 m) t)%R.
Proof.
  intros R ST Hp Hk Hn RW E. apply (rounds_descend x r d m P M Pri c Hp Hk rs (fun e => e) c os t t'); auto.
  - intros e. auto.
  - rewrite map_self. exact ST.
Qed.

(** Totality of an iteration right after a weight update. *)
Lemma iterate_robust_total x opt a g0 : AInv a -> p_accel (a_params a) = false -> a_inner a = 0%Z -> a_state a = INITIALIZED ->
  base g0 -> like g0 (a_pg a) -> opt_sized opt -> full g0 (a_ndict a) -> exists a' s, ag_iterate x opt a true = Ok (a', s).
Proof.
  intros I Ac Hin Hs Bs L SO F. unfold ag_iterate. change (robust (sa_iter a (u32 (a_iter a + 1)))) with (robust a).
  assert (EI : exists i, (if robust a then do i <- int_incr (a_inner (sa_iter a (u32 (a_iter a + 1)))); Ok (sa_inner (sa_iter a (u32 (a_iter a + 1))) i) else Ok (sa_iter a (u32 (a_iter a + 1)))) =
    Ok (sa_inner (sa_iter a (u32 (a_iter a + 1))) i)).
  { destruct (robust a); [|exists (a_inner a); destruct a; reflexivity]. change (a_inner (sa_iter a (u32 (a_iter a + 1)))) with (a_inner a). rewrite Hin. exists 1%Z. reflexivity. }
  destruct EI as (i & ->). cbn [bind].
  assert (Hi : is_init a = true) by (apply is_init_eq; auto). change (is_init (sa_inner (sa_iter a (u32 (a_iter a + 1))) i)) with (is_init a). rewrite Hi.
  change (a_X (sa_inner (sa_iter a (u32 (a_iter a + 1))) i)) with (a_X a).
  destruct (iter_base_inv a I Hi (u32 (a_iter a + 1)) i (a_gamma a) (a_alpha a) (a_Y a)) as [I1 _].
  set (a1 := sa_XPrev (sa_inner (sa_iter a (u32 (a_iter a + 1))) i) (a_X a)) in *.
  change (a_params a1) with (a_params a). rewrite Ac.
  destruct (updateX_total opt a1 true false g0 I1 Hs Bs L SO) as (a2 & E2 & L2 & _ & K2); [discriminate|intros _; exact F|].
  rewrite E2. cbn [bind]. pose proof (updateX_inv opt a1 true false a2 true E2 I1 ltac:(discriminate) Hs) as I2.
  destruct (updateX_frame opt a1 true false a2 true E2 I1 ltac:(discriminate) Hs) as (Fr & _ & _).
  destruct (updateX_form _ _ _ _ _ _ E2 I1 ltac:(discriminate) Hs) as (X' & g' & EF & G & HX).
  assert (S2 : a_state a2 = INITIALIZED) by (rewrite EF; exact Hs).
  destruct (updateStatus_total a2 true I2 S2) as (st & ->).
  { destruct (iv_X _ I ltac:(congruence)) as [_ AX]. destruct (like_fields _ _ L) as (_ & _ & _ & _ & _ & N1 & _). destruct (like_fields _ _ L2) as (_ & _ & _ & _ & _ & N2 & _).
    replace (num_poses a2) with (num_poses a) by (unfold num_poses; congruence). rewrite EF. exact AX. }
  cbn [bind]. eauto.
Qed.

(** What the robots store after all have updated their weights. *)
Theorem robust_agree x r d m P M Pri c os0 t0 ks t1 : treach x P m os0 t0 -> staged r d M Pri P c t0 -> (forall j, uptodate r d t0 j) -> Permutation ks (range 0 m) ->
  tm_run x t0 (reweights ks) = Ok t1 ->
  staged r d (map (fun e => if adaptive e then set_mweight (weight c (residual_at r d t0 e)) e else e) M) Pri P (rc_update c) t1 /\ forall k, est t1 k = est t0 k.
Proof.
  intros R ST UD PM E1. assert (ND : NoDup ks) by (apply (Permutation_NoDup (Permutation_sym PM)), range_NoDup).
  destruct (reweights_run x m P ks os0 t0 t1 R ND) as (R1 & X1 & U); [|exact E1|].
  { intros k a _ K. destruct (ST k a K) as (C & _ & Tr). split; [apply C|exact Tr]. }
  split; [|intros k; rewrite X1; reflexivity]. intros k a1 K1. destruct (U k a1 K1) as (a0 & K0 & U1 & _). destruct (ST k a0 K0) as (C & Ec & Tr).
  assert (Hk2 : In k ks). { apply (Permutation_in _ (Permutation_sym PM)), range_In. split; [lia|]. assert (N.to_nat k < length (tm_agents t0))%nat by (apply nth_error_Some; unfold robot in K0; congruence). rewrite (ti_len _ _ _ _ _ (tinv _ _ _ _ _ R)) in H. lia. }
  destruct (update_member x r d m P os0 t0 k a0 a1 M Pri c R K0 C Ec Tr (UD k) (U1 Hk2)) as (B1 & _ & Q2 & Q3 & _).
  split; [|split; [exact Q2|rewrite Q3; exact Tr]]. destruct B1. constructor; auto.
Qed.
