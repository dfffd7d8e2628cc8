(** The cost of a team's dataset along an execution (C65). *)
From Coq Require Import List NArith ZArith Bool Arith Lia Lra Reals.
From Verif Require Import Base SMap Num RSum ModelTypes ModelPoseGraph ModelProblem ModelRobust ModelPoses ModelSolver ModelAgent ModelExample ModelTeam
  SpecPoseGraph SpecPGHist SpecCost SpecAgent SpecRun SpecStatus SpecTeam SpecDescent ProofsPoseGraph ProofsPGHist ProofsPGData ProofsCost ProofsCost2 ProofsCost4
  ProofsAgent ProofsAgent2 ProofsAgent3 ProofsAgent4 ProofsAgent5 ProofsAgent6 ProofsStatus ProofsExample ProofsRun ProofsRun2 ProofsRun3 ProofsTeam ProofsTeam2 ProofsTeam3.
Import ListNotations.
Local Open Scope res_scope.
Implicit Types (g : PoseGraph R) (a : Agent R) (t : Team R).

(** Iterating without acceleration. *)
Lemma iterate_plain x opt a b a' s g0 : ag_iterate x opt a b = Ok (a', s) -> AInv a -> p_accel (a_params a) = false -> a_state a = INITIALIZED ->
  base g0 -> like g0 (a_pg a) -> (b = true -> opt_sized opt) -> (b = true -> full g0 (a_ndict a)) ->
  a_state a' = INITIALIZED /\ like g0 (a_pg a') /\ (b = false -> a_X a' = a_X a) /\
  (b = true -> exists g, like g0 g /\ pg_nposes g = a_ndict a /\ pa_X (a_X a') = snd (opt g (pa_X (a_X a)))).
Proof.
  intros E I Ac Hs Bs L SO F. destruct (iterate_all _ _ _ _ _ _ E I) as (_ & (_ & _ & Fs & _) & _). split; [congruence|]. clear Fs.
  unfold ag_iterate in E. dres E. rename y into a1.
  assert (F1 : exists i, a1 = sa_inner (sa_iter a (u32 (a_iter a + 1))) i).
  { change (robust (sa_iter a (u32 (a_iter a + 1)))) with (robust a) in E0. destruct (robust a); dres E0; okinv E0; eauto. exists (a_inner a). destruct a; reflexivity. }
  destruct F1 as (i & ->). clear E0. assert (Hi : is_init a = true) by (apply is_init_eq; auto).
  change (is_init (sa_inner (sa_iter a (u32 (a_iter a + 1))) i)) with (is_init a) in E. rewrite Hi in E.
  change (a_X (sa_inner (sa_iter a (u32 (a_iter a + 1))) i)) with (a_X a) in E.
  destruct (iter_base_inv a I Hi (u32 (a_iter a + 1)) i (a_gamma a) (a_alpha a) (a_Y a)) as [I1 _].
  set (a1 := sa_XPrev (sa_inner (sa_iter a (u32 (a_iter a + 1))) i) (a_X a)) in *.
  change (a_params a1) with (a_params a) in E. rewrite Ac in E.
  destruct b.
  - destruct (updateX_total opt a1 true false g0 I1 Hs Bs L (SO eq_refl)) as (a2 & E2 & L2 & _ & K2); [discriminate|exact F|].
    rewrite E2 in E. cbn [bind] in E. destruct (ag_updateStatus a2 true) as [a3| |] eqn:E3; cbn [bind] in E; try discriminate.
    assert (Q : a_X a3 = a_X a2 /\ a_pg a3 = a_pg a2) by (unfold ag_updateStatus in E3; dres E3; okinv E3; split; reflexivity). destruct Q as [Q1 Q2].
    cbn [orb] in E. okinv E. cbn [a_X a_pg sa_pub sa_pubasync]. rewrite Q1, Q2. split; [exact L2|]. split; [discriminate|exact K2].
  - unfold ag_updateX in E. cbn [negb bind] in E. cbn [orb] in E. change (a_params a1) with (a_params a) in E. rewrite Ac in E. okinv E. split; [exact L|]. split; [reflexivity|discriminate].
Qed.

(** Totality, without the robust cost. *)
Lemma iterate_plain_total x opt a g0 : AInv a -> p_accel (a_params a) = false -> robust a = false -> a_state a = INITIALIZED ->
  base g0 -> like g0 (a_pg a) -> opt_sized opt -> full g0 (a_ndict a) -> exists a' s, ag_iterate x opt a true = Ok (a', s).
Proof.
  intros I Ac Rb Hs Bs L SO F. unfold ag_iterate. change (robust (sa_iter a (u32 (a_iter a + 1)))) with (robust a). rewrite Rb. cbn [bind].
  assert (Hi : is_init a = true) by (apply is_init_eq; auto). change (is_init (sa_iter a (u32 (a_iter a + 1)))) with (is_init a). rewrite Hi.
  change (a_X (sa_iter a (u32 (a_iter a + 1)))) with (a_X a).
  destruct (iter_base_inv a I Hi (u32 (a_iter a + 1)) (a_inner a) (a_gamma a) (a_alpha a) (a_Y a)) as [I1 _].
  assert (EI : sa_inner (sa_iter a (u32 (a_iter a + 1))) (a_inner a) = sa_iter a (u32 (a_iter a + 1))) by (destruct a; reflexivity). rewrite EI in I1.
  set (a1 := sa_XPrev (sa_iter a (u32 (a_iter a + 1))) (a_X a)) in *.
  change (a_params a1) with (a_params a). rewrite Ac.
  destruct (updateX_total opt a1 true false g0 I1 Hs Bs L SO) as (a2 & E2 & L2 & _ & K2); [discriminate|intros _; exact F|].
  rewrite E2. cbn [bind]. pose proof (updateX_inv opt a1 true false a2 true E2 I1 ltac:(discriminate) Hs) as I2.
  destruct (updateX_frame opt a1 true false a2 true E2 I1 ltac:(discriminate) Hs) as (Fr & _ & _).
  destruct (updateX_form _ _ _ _ _ _ E2 I1 ltac:(discriminate) Hs) as (X' & g' & EF & G & HX).
  assert (S2 : a_state a2 = INITIALIZED) by (rewrite EF; exact Hs).
  destruct (updateStatus_total a2 true I2 S2) as (st & ->).
  { destruct (iv_X _ I ltac:(congruence)) as [_ AX]. destruct (like_fields _ _ L) as (_ & _ & _ & _ & _ & N1 & _). destruct (like_fields _ _ L2) as (_ & _ & _ & _ & _ & N2 & _).
    replace (num_poses a2) with (num_poses a) by (unfold num_poses; congruence). rewrite EF. exact AX. }
  cbn [bind]. eauto.
Qed.

Lemma est_at t k a : robot t k a -> est t k = pa_X (a_X a).
Proof. unfold robot, est. intros E. erewrite nth_error_nth; [reflexivity|]. rewrite nth_error_map, E. reflexivity. Qed.
Lemma upd_map {A B} (f : A -> B) l : forall k (u v : A), nth_error l k = Some u -> f v = f u -> map f (list_update l k (fun _ => v)) = map f l.
Proof. induction l as [|w l IH]; intros [|k] u v; cbn; try discriminate; intros E H; [injection E as ->; congruence|]. f_equal. eauto. Qed.
Lemma est_put t k a a' : robot t k a -> a_X a' = a_X a -> est (tm_put t k a') = est t.
Proof. unfold robot, est, tm_put. cbn [tm_agents]. intros E H. rewrite (upd_map _ _ _ a a' E); [reflexivity|congruence]. Qed.
Lemma est_put_other t k a' j : j <> k -> est (tm_put t k a') j = est t j.
Proof.
  intros N. unfold est, tm_put. cbn [tm_agents]. assert (E : nth_error (map (fun a => pa_X (a_X a)) (list_update (tm_agents t) (N.to_nat k) (fun _ => a'))) (N.to_nat j) =
    nth_error (map (fun a => pa_X (a_X a)) (tm_agents t)) (N.to_nat j)).
  { rewrite !nth_error_map, upd_nth. destruct (Nat.eqb_spec (N.to_nat k) (N.to_nat j)); [lia|reflexivity]. }
  rewrite !nth_default_eq || idtac. rewrite <- !nth_default_eq. unfold nth_default. rewrite E. reflexivity.
Qed.

Section D.
Context (x : Ext R) (r d : nat) (m : N) (P : N -> AgentParams R) (M : list (Meas R)) (Pri : N -> list (N * Mx R)) (os0 : list (top R)) (t0 : Team R).
Hypothesis (R0 : treach x P m os0 t0) (HM : forall k a, robot t0 k a -> member r d M Pri k (P k) a).
Notation cost := (team_cost r d M Pri (range 0 m)).

Definition core t : Prop := forall k a, robot t k a -> a_state a = INITIALIZED /\ exists a0, robot t0 k a0 /\ like (a_pg a0) (a_pg a).

Lemma core0 : core t0.
Proof.
  intros k a K. pose proof (HM k a K) as []. split; auto. exists a. split; auto.
  destruct (robot_id_of _ _ _ _ _ _ _ (tinv _ _ _ _ _ R0) K) as (_ & _ & I). split; [apply (iv_pg _ I)|]. split; [repeat split|].
  apply coh_none; auto.
Qed.
Lemma core_base k a0 : robot t0 k a0 -> base (a_pg a0).
Proof. intros K. destruct (HM k a0 K). constructor; auto. Qed.

Lemma core_put t k a a' : core t -> robot t k a -> a_state a' = INITIALIZED -> (forall g0, base g0 -> like g0 (a_pg a) -> like g0 (a_pg a')) -> core (tm_put t k a').
Proof.
  intros C K S L j b Kb. apply put_robot in Kb. destruct Kb as [[-> ->]|[N Kb]]; [|apply C; auto].
  destruct (C k a K) as (_ & a0 & K0 & L0). split; auto. exists a0. split; auto. apply L; auto. apply (core_base k); auto.
Qed.

(** The robot's update lowers the team's cost if the optimiser lowers the robot's own. *)
Lemma step_descent opt os t j a a' g a0 : treach x P m os t -> robot t j a -> robot t0 j a0 -> a_state a = INITIALIZED -> like (a_pg a0) (a_pg a) -> like (a_pg a0) g -> pg_nposes g = a_ndict a ->
  opt_sized opt -> descending opt -> uptodate r d t j -> pa_X (a_X a') = snd (opt g (pa_X (a_X a))) ->
  (cost (tm_put t j a') <= cost t)%R.
Proof.
  intros R K K0 Hs La L EN SO DC UD EX. destruct (robot_id_of _ _ _ _ _ _ _ (tinv _ _ _ _ _ R) K) as (Ia & Pa & I).
  destruct (robot_id_of _ _ _ _ _ _ _ (tinv _ _ _ _ _ R0) K0) as (Ia0 & Pa0 & I0). destruct (HM j a0 K0). pose proof (core_base j a0 K0) as Bs.
  destruct (like_fields _ _ L) as (F1 & F2 & F3 & F4 & _ & F6 & F7 & F8 & _ & F10 & _). destruct (like_fields _ _ La) as (A1 & _ & _ & A4 & _ & A6 & A7 & A8 & _).
  pose proof (iv_r _ I) as Ir. pose proof (iv_d _ I) as Idd. rewrite Pa in Ir, Idd. pose proof (iv_id _ I) as Ii.
  assert (Id : pg_id g = j) by congruence. assert (Hr : pg_r g = r) by congruence. assert (Hd : pg_d g = d) by congruence. pose proof L as (W & _).
  assert (C : forall e, In e (pg_shared g) -> exists b v, robot t (robot_id (other_pose j e)) b /\ mfind pose_ltb (other_pose j e) (a_ndict a) = Some v /\ is_block r d (pa_X (a_X b)) (N.to_nat (frame_id (other_pose j e))) v).
  { intros e He. destruct (UD a e K) as (b & Kb & v & F & B); [congruence|eauto]. }
  assert (Act : forall e, In e (pg_shared g) -> remote_pose g e = mfind pose_ltb (other_pose j e) (a_ndict a)).
  { intros e He. rewrite rem_find; auto; [rewrite Id, EN; reflexivity|]. rewrite Id, (like_active _ _ _ L). apply mb_active. congruence. }
  assert (NK : needed_known g).
  { intros e He _. rewrite Id, EN. destruct (C e He) as (b & v & _ & F & _). eauto. }
  assert (UO : used_ok g).
  { apply nposes_used; auto. intros p Z Hin. rewrite EN in Hin. destruct (iv_nd _ I) as [Sd Q].
    destruct (Q p Z) as (_ & Q1 & Q2); [apply (mfind_In _ pose_total); auto|]. rewrite Pa in Q1, Q2. split; [congruence|]. rewrite Q2. lia. }
  destruct (iv_X _ I ltac:(congruence)) as [_ AX]. destruct AX as (_ & _ & _ & X1 & X2). rewrite Pa in X1, X2. unfold num_poses in X2.
  assert (Sz : forall X, mrows X = r -> mcols X = ((d + 1) * N.to_nat (pg_n (a_pg a)))%nat -> exists g' v, qp_f g X = Ok (g', v)).
  { intros X R1 R2. apply (like_f_defined (a_pg a0) g X L NK); [apply Bs|apply Bs|congruence|]. rewrite R2, <- A6, <- A7, Idd, mb_d. lia. }
  destruct (Sz (pa_X (a_X a))) as (g1 & v & E1); [congruence|congruence|]. destruct (SO g (pa_X (a_X a)) g1 v E1) as [O1 O2].
  destruct (Sz (snd (opt g (pa_X (a_X a))))) as (g2 & v' & E2); [congruence|congruence|].
  pose proof (DC _ _ _ _ _ _ E1 E2) as LE. rewrite (like_f_val _ _ _ _ _ L UO E1), (like_f_val _ _ _ _ _ L UO E2) in LE.
  assert (T1 : est t j = pa_X (a_X a)) by (apply est_at; auto).
  assert (T2 : est (tm_put t j a') j = snd (opt g (pa_X (a_X a)))) by (rewrite <- EX; apply est_at; apply (put_same t j a' a K)).
  rewrite <- T1 in LE at 2. rewrite <- T2 in LE.
  assert (TD : (cost (tm_put t j a') - cost t = local_cost g (est (tm_put t j a') j) - local_cost g (est t j))%R).
  { apply (team_delta r d M (range 0 m) Pri (est t) (est (tm_put t j a')) j g W Id); auto.
    - unfold knows. rewrite F2, F3, F4. exact mb_knows.
    - congruence.
    - intros e He. rewrite (Act e He). destruct (C e He) as (b & w & Kb & Fw & B). rewrite Fw, Id. eexists. split; [reflexivity|]. cbv zeta. intros p c Hp Hc.
      rewrite (est_at _ _ _ Kb). destruct B as (_ & _ & B). rewrite Hr in Hp. rewrite Hd in Hc |- *. rewrite B by lia. unfold pose_blk. f_equal. lia.
    - apply range_NoDup.
    - apply range_In. split; [lia|]. assert (N.to_nat j < length (tm_agents t))%nat by (apply nth_error_Some; unfold robot in K; congruence).
      rewrite (ti_len _ _ _ _ _ (tinv _ _ _ _ _ R)) in H. lia.
    - intros i Hi. apply est_put_other; auto. }
  lra.
Qed.

Lemma cost_put t k a a' : robot t k a -> a_X a' = a_X a -> cost (tm_put t k a') = cost t.
Proof. intros K E. unfold team_cost. rewrite (est_put t k a a' K E). reflexivity. Qed.

(** Calls that only touch the caches and the records. *)
Lemma quiet_put t k a a' : core t -> robot t k a -> a_state a' = a_state a -> a_pg a' = a_pg a -> a_X a' = a_X a -> core (tm_put t k a') /\ (cost (tm_put t k a') <= cost t)%R.
Proof.
  intros C K E1 E2 E3. split; [|rewrite (cost_put t k a a' K E3); lra].
  apply (core_put t k a a' C K); [destruct (C k a K); congruence|]. intros g0 _ L. rewrite E2. exact L.
Qed.

Lemma full_uptodate os t j a a0 : treach x P m os t -> robot t j a -> robot t0 j a0 -> like (a_pg a0) (a_pg a) -> uptodate r d t j -> full (a_pg a0) (a_ndict a).
Proof.
  intros R K K0 L UD e He. destruct (like_fields _ _ L) as (F1 & _ & _ & F4 & _). destruct (robot_id_of _ _ _ _ _ _ _ (tinv _ _ _ _ _ R) K) as (Ia & _ & I).
  rewrite <- F1, (iv_id _ I), Ia. rewrite <- F4 in He. destruct (UD a e K He) as (b & _ & v & F & _). eauto.
Qed.

Lemma iterate_put os t j a a' s opt : treach x P m os t -> core t -> robot t j a -> opt_sized opt -> descending opt -> uptodate r d t j ->
  ag_iterate x opt a true = Ok (a', s) -> core (tm_put t j a') /\ (cost (tm_put t j a') <= cost t)%R.
Proof.
  intros R C K SO DC UD E. destruct (C j a K) as (Hs & a0 & K0 & L0). destruct (robot_id_of _ _ _ _ _ _ _ (tinv _ _ _ _ _ R) K) as (Ia & Pa & I).
  assert (Ac : p_accel (a_params a) = false) by (rewrite Pa; apply (HM j a0 K0)).
  pose proof (full_uptodate os t j a a0 R K K0 L0 UD) as F.
  destruct (iterate_plain x opt a true a' s (a_pg a0) E I Ac Hs (core_base j a0 K0) L0) as (S' & L' & _ & Q); auto.
  destruct (Q eq_refl) as (g & Lg & EN & EX). split.
  - intros i b Kb. apply put_robot in Kb. destruct Kb as [[-> ->]|[N Kb]]; [|apply C; auto]. split; auto. exists a0. auto.
  - apply (step_descent opt os t j a a' g a0); auto.
Qed.

Lemma core_step os t o t' : treach x P m os t -> core t -> careful1 r d t o -> tm_step x t o = Ok t' -> core t' /\ (cost t' <= cost t)%R.
Proof.
  intros R C Q E. destruct o as [k o|k aux to|k|j i|j i]; cbn [tm_step] in E.
  - dres E. apply tm_at_Ok in E0. rename E0 into K, y into a, y0 into a', E1 into Es. okinv E.
    destruct (C k a K) as (Hs & a0 & K0 & L0). destruct (robot_id_of _ _ _ _ _ _ _ (tinv _ _ _ _ _ R) K) as (_ & Pa & I).
    assert (Ac : p_accel (a_params a) = false) by (rewrite Pa; apply (HM k a0 K0)).
    destruct o; cbn [careful1] in Q; try contradiction; cbn [ag_step] in Es.
    + destruct b.
      * destruct (ag_iterate x opt a true) as [[a2 s]| |] eqn:Ei; cbn [bind] in Es; try discriminate. injection Es as <-. destruct Q as (Q1 & Q2 & Q3). apply (iterate_put os t k a a2 s opt); auto.
      * destruct (ag_iterate x opt a false) as [[a2 s]| |] eqn:Ei; cbn [bind] in Es; try discriminate. injection Es as <-.
        destruct (iterate_plain x opt a false a2 s (a_pg a0) Ei I Ac Hs (core_base k a0 K0) L0) as (S' & L' & QX & _); try discriminate.
        split; [|rewrite (cost_put t k a a2 K (QX eq_refl)); lra].
        intros i b Kb. apply put_robot in Kb. destruct Kb as [[-> ->]|[N Kb]]; [|apply C; auto]. split; auto. exists a0. auto.
    + destruct (a_thread a); [|injection Es as <-; apply (quiet_put t k a); auto].
      destruct (ag_iterate x opt a true) as [[a2 s]| |] eqn:Ei; cbn [bind] in Es; try discriminate. injection Es as <-. destruct Q as (Q1 & Q2 & Q3). apply (iterate_put os t k a a2 s opt); auto.
    + unfold ag_startOptimizationLoop in Es. rewrite Ac in Es. cbn [negb check] in Es. destruct (a_thread a); injection Es as <-; apply (quiet_put t k a); auto.
    + unfold ag_endOptimizationLoop in Es. injection Es as <-. destruct (a_thread a); apply (quiet_put t k a); auto.
    + injection Es as <-. apply (quiet_put t k a); auto.
    + unfold ag_clearActiveNeighborPoses in Es. dres Es. injection Es as <-. apply (quiet_put t k a); auto.
    + injection Es as <-. apply (quiet_put t k a); auto.
  - dres E. destruct y0 as [D|]; okinv E; [|split; [auto|lra]]. split; [exact C|]. unfold team_cost, est. cbn [tm_agents]. lra.
  - dres E. cbn [ag_step] in E1. injection E1 as <-. injection E as <-. apply tm_at_Ok in E0. destruct (quiet_put t k y (ag_getStatus y) C E0 eq_refl eq_refl eq_refl) as [C1 C2]. split; [exact C1|exact C2].
  - destruct (nth_error (tm_poses t) i) as [msg|]; [|discriminate]. dres E. apply tm_at_Ok in E0. rename E0 into K, y into a, y0 into a', E1 into Es. okinv E.
    destruct (C j a K) as (Hs & _). destruct (robot_id_of _ _ _ _ _ _ _ (tinv _ _ _ _ _ R) K) as (_ & Pa & I).
    assert (Hi : is_init a = true) by (apply is_init_eq; auto).
    assert (QQ : a_state a' = a_state a /\ a_pg a' = a_pg a /\ a_X a' = a_X a); [|destruct QQ as (Q1 & Q2 & Q3); apply (quiet_put t j a a'); auto].
    destruct (pm_aux msg); cbn [ag_step] in Es.
    + unfold ag_updateAuxNeighborPoses in Es. dres Es. repeat match type of Es with context [if ?c then _ else _] => destruct c; try discriminate end; dres Es; injection Es as <-; auto.
    + unfold ag_updateNeighborPoses in Es. destruct (negb (pm_from msg =? a_id a)%N); cbn [check] in Es; [|discriminate].
      destruct (nbr_ready a (pm_from msg)); cbn [negb] in Es; [|injection Es as <-; auto].
      rewrite Hs in Es. cbn [state_eqb bind] in Es. rewrite Hi in Es. cbn [negb] in Es. dres Es. injection Es as <-. auto.
  - destruct (nth_error (tm_status t) i) as [st|]; [|discriminate]. dres E. cbn [ag_step bind] in E. apply tm_at_Ok in E0. injection E1 as <-. injection E as <-. apply (quiet_put t j y); auto.
Qed.

Lemma treach_step os t o t' : treach x P m os t -> top_ok P o -> tm_step x t o = Ok t' -> treach x P m (os ++ [o]) t'.
Proof.
  intros [E F] Ho Es. split; [|apply Forall_app; auto]. dres E. rewrite E0. cbn. unfold tm_run in *. rewrite foldM_app, E. cbn. rewrite Es. reflexivity.
Qed.

Lemma descends os : forall osr t t', treach x P m osr t -> core t -> Forall (top_ok P) os -> careful r d x t os -> tm_run x t os = Ok t' -> core t' /\ (cost t' <= cost t)%R.
Proof.
  induction os as [|o os IH]; intros osr t t' R C F Q E; cbn in E; [okinv E; split; [auto|lra]|].
  destruct (tm_step x t o) as [t1| |] eqn:E1; cbn [bind] in E; try discriminate. destruct Q as [Q1 Q2]. inversion F; subst.
  destruct (core_step osr t o t1 R C Q1 E1) as [C1 L1]. destruct (IH (osr ++ [o]) t1 t' (treach_step _ _ _ _ R H1 E1) C1 H2 (Q2 t1 E1) E) as [C2 L2]. split; [auto|lra].
Qed.
End D.

Theorem team_descends x r d m P M Pri os0 t0 os t : treach x P m os0 t0 -> (forall k a, robot t0 k a -> member r d M Pri k (P k) a) ->
  Forall (top_ok P) os -> careful r d x t0 os -> tm_run x t0 os = Ok t ->
  (team_cost r d M Pri (range 0 m) t <= team_cost r d M Pri (range 0 m) t0)%R.
Proof. intros R HM F Q E. exact (proj2 (descends x r d m P M Pri os0 t0 R HM os os0 t0 t R (core0 x r d m P M Pri os0 t0 R HM) F Q E)). Qed.
