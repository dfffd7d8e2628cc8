(** Freshness of the matrices an agent optimises with. *)
From Coq Require Import List NArith ZArith Bool Arith Lia.
From Verif Require Import Base SMap Num ModelTypes ModelPoseGraph ModelProblem ModelRobust ModelPoses ModelSolver ModelAgent
  SpecPoseGraph SpecPGHist SpecSolver SpecAgent SpecData ProofsPoseGraph ProofsPGHist ProofsPGMain ProofsPGData ProofsPoses ProofsAgent ProofsAgent2 ProofsAgent3
  ProofsAgent5.
Import ListNotations.
Local Open Scope res_scope.

Section A.
Context {S : Type} `{HS : Num S}.
Implicit Types (a : Agent S) (g : PoseGraph S) (T X : PoseArr S) (x : Ext S).

Lemma same_data_refl g : same_data g g.
Proof. unfold same_data. auto 20. Qed.
Lemma same_data_trans g1 g2 g3 : same_data g1 g2 -> same_data g2 g3 -> same_data g1 g3.
Proof. unfold same_data. intuition congruence. Qed.

(** The stored quadratic matrix is that of the data. *)
Definition okQ g : Prop := forall Q, pg_Q g = Some Q -> Qfull g = Ok Q.

Lemma clear_buildQ g Q : pg_wf g -> existsb (missing g) (pg_shared g) = false -> Qfull g = Ok Q ->
  exists g', quadraticMatrix (set_pg_Q g None) = Ok (g', Q).
Proof.
  intros W M F. unfold quadraticMatrix. change (pg_Q (set_pg_Q g None)) with (@None (Mx S)). cbn [bind]. unfold constructQ.
  rewrite (buildQ_spec _ (set_Q_wf g None W)).
  change (existsb (missing (set_pg_Q g None)) (pg_shared (set_pg_Q g None))) with (existsb (missing g) (pg_shared g)).
  change (localMeasurements (set_pg_Q g None)) with (localMeasurements g).
  rewrite M. change (Qdiag (set_pg_Q g None)) with (Qdiag g). rewrite <- (Qdiag_same g M).
  unfold Qfull in F. apply bind_Ok in F. destruct F as (QL & F1 & F2). rewrite F1. cbn [bind].
  change (pg_d (set_pg_Q g None)) with (pg_d g). change (pg_n (set_pg_Q g None)) with (pg_n g).
  rewrite F2. cbn [bind]. eexists. reflexivity.
Qed.

Lemma build_shape q g g' b : pg_wf g -> pg_G g = None -> pg_useinact g = false -> (q = true -> okQ g) ->
  constructDataMatrices g = Ok (g', b) ->
  same_data g g' /\ pg_nposes g' = pg_nposes g /\ pg_wf g' /\ (q = true -> okQ g') /\ (b = true -> (q = true -> fresh_Q g') /\ fresh_G g').
Proof.
  intros W HG U K E. pose proof (constructData_core _ _ _ E) as C. pose proof (constructData_wf _ _ _ W E) as W'.
  assert (K' : q = true -> okQ g').
  { intros Hq. specialize (K Hq). intros Q HQ. rewrite (Qfull_ext _ _ C). unfold constructDataMatrices in E. apply bind_Ok in E. destruct E as ([g1 b1] & E1 & E).
    assert (Q1 : pg_Q g' = pg_Q g1).
    { destruct b1; cbn [negb] in E; [|okinv E; reflexivity]. apply bind_Ok in E. destruct E as ([g2 b2] & E2 & E). injection E as <- <-.
      destruct (pg_G g1); [okinv E2; reflexivity|]. destruct (constructG_fields _ _ _ E2) as [->|[G ->]]; reflexivity. }
    rewrite Q1 in HQ. destruct (pg_Q g) as [Q0|] eqn:EQ.
    - injection E1 as <- <-. apply K. congruence.
    - unfold constructQ in E1. apply bind_Ok in E1. destruct E1 as ([Q'|] & E0 & E1); injection E1 as <- <-; [|congruence].
      cbn in HQ. injection HQ as <-. exact (proj1 (buildQ_full g W _ E0)). }
  split; [|split; [|split; [|split]]]; auto.
  - unfold core_eq in C. unfold same_data. intuition congruence.
  - apply C.
  - intros ->. destruct (construct_spec _ _ _ W E) as (N1 & _ & N3 & _). specialize (N3 eq_refl). destruct N3 as [NQ NG].
    assert (NK : needed_known g) by (apply N1; auto).
    assert (M' : existsb (missing g') (pg_shared g') = false).
    { apply missing_iff; auto. unfold needed_known, isNeighborActive, hasNeighbor. unfold core_eq in C.
      destruct C as (C1 & C2 & C3 & C4 & C5 & C6 & C7 & C8 & C9 & C10 & _). rewrite C1, C4, C5, C9, C10. exact NK. }
    split.
    + intros Hq. specialize (K' Hq). destruct (pg_Q g') as [Q|] eqn:EQ; [|congruence]. destruct (clear_buildQ g' Q W' M' (K' Q EQ)) as [g2 E2]. exists Q, g2. auto.
    + destruct (pg_G g') as [G|] eqn:EG; [|congruence]. exists G.
      assert (B : buildG g' = Ok (Some G)).
      { unfold constructDataMatrices in E. apply bind_Ok in E. destruct E as ([g1 b1] & E1 & E).
        destruct b1; cbn [negb] in E; [|discriminate E]. apply bind_Ok in E. destruct E as ([g2 b2] & E2 & E). injection E as -> ->.
        assert (C1 : core_eq g g1 /\ pg_G g1 = None /\ pg_wf g1).
        { destruct (pg_Q g); [injection E1 as <-; split; [apply core_refl|auto]|].
          split; [exact (constructQ_core _ _ _ E1)|]. split; [|exact (constructQ_wf _ _ _ W E1)].
          destruct (constructQ_fields _ _ _ E1) as [->|[Q ->]]; auto. }
        destruct C1 as (C1 & G1 & W1). rewrite G1 in E2. pose proof (constructG_core _ _ _ E2) as C2. rewrite (buildG_ext _ _ C2 W1 W').
        unfold constructG in E2. apply bind_Ok in E2. destruct E2 as ([G'|] & E0 & E2); injection E2 as <-; [|congruence].
        cbn in EG. rewrite E0. congruence. }
      unfold linearMatrix. change (pg_G (set_pg_G g' None)) with (@None (Mx S)). cbn [bind]. unfold constructG.
      rewrite (buildG_ext g' (set_pg_G g' None)), B; [|repeat split|exact W'|exact (set_G_wf g' None W')]. cbn [bind]. eexists. split; [exact EG|reflexivity].
Qed.

(** What the optimisation of an agent relies on; with [q], also that the stored
    quadratic matrix is right. *)
Section K.
Variable q : bool.
Definition K a : Prop :=
  pg_wf (a_pg a) /\ msorted pose_ltb (a_ndict a) /\ msorted pose_ltb (a_naux a) /\ pg_useinact (a_pg a) = false /\ (q = true -> okQ (a_pg a)).
Definition okg a g : Prop := handed a g /\ (q = true -> fresh_Q g).
Definition moved a a' : Prop := same_data (a_pg a) (a_pg a') /\ a_ndict a' = a_ndict a /\ a_naux a' = a_naux a /\ a_params a' = a_params a.
Lemma moved_alike a a' f f' : moved a a' -> alike (okg a) f f' -> alike (okg a') f f'.
Proof.
  intros (M1 & M2 & M3 & M4) L g X ((P1 & P2 & P3) & P4). apply L. rewrite M2, M3, M4 in P2. split; [|exact P4]. split; [|auto]. eapply same_data_trans; eauto.
Qed.
Lemma K_same a a' : K a -> a_pg a' = a_pg a -> a_ndict a' = a_ndict a -> a_naux a' = a_naux a -> K a'.
Proof. unfold K. intros H -> -> ->. exact H. Qed.
Lemma alike_same a a' f f' : a_pg a' = a_pg a -> a_ndict a' = a_ndict a -> a_naux a' = a_naux a -> a_params a' = a_params a -> alike (okg a) f f' -> alike (okg a') f f'.
Proof. intros E1 E2 E3 E4. apply moved_alike. unfold moved. rewrite E1. auto using same_data_refl. Qed.

Lemma okQ_nbr g d : pg_useinact g = false -> okQ g -> okQ (setNeighborPoses g d).
Proof. intros U O Q E. unfold setNeighborPoses. rewrite Qfull_nposes by auto. apply O. exact E. Qed.

Lemma build_agent a acc g b : K a -> constructDataMatrices (setNeighborPoses (a_pg a) (if acc : bool then a_naux a else a_ndict a)) = Ok (g, b) ->
  same_data (a_pg a) g /\ pg_nposes g = (if acc then a_naux a else a_ndict a) /\ pg_wf g /\ (q = true -> okQ g) /\ pg_useinact g = false /\ (b = true -> (q = true -> fresh_Q g) /\ fresh_G g).
Proof.
  intros (W & D1 & D2 & U & O) E.
  assert (W1 : pg_wf (setNeighborPoses (a_pg a) (if acc then a_naux a else a_ndict a))).
  { apply (pg_step_wf (a_pg a) (PSetNbr (if acc then a_naux a else a_ndict a))); [|exact W|reflexivity]. cbn. destruct acc; auto. }
  destruct (build_shape q _ _ _ W1 eq_refl U (fun Hq => okQ_nbr _ _ U (O Hq)) E) as (S1 & S2 & S3 & S4 & S5).
  split; [exact S1|]. split; [exact S2|]. split; auto. split; auto. split; auto.
  destruct S1 as (_ & _ & _ & _ & _ & _ & _ & _ & _ & _ & _ & _ & V & _). rewrite V. exact U.
Qed.

Lemma updateX_alike f f' a b acc : K a -> alike (okg a) f f' -> ag_updateX f a b acc = ag_updateX f' a b acc.
Proof.
  intros HK L. unfold ag_updateX. destruct b; cbn [negb]; [|reflexivity].
  destruct (negb acc || p_accel (a_params a)) eqn:PA; cbn [check]; [|reflexivity]. destruct (is_init a); cbn [check]; [|reflexivity].
  cbv zeta. destruct (constructDataMatrices _) as [[g bb]| |] eqn:E; cbn [bind]; try reflexivity.
  destruct bb; cbn [negb]; [|reflexivity]. destruct (build_agent a acc g true HK E) as (S1 & S2 & _ & _ & _ & S5). destruct (S5 eq_refl) as [FQ FG].
  rewrite (L g). { reflexivity. } split; auto. split; [exact S1|]. split; [|exact FG]. destruct acc; [right; split; [exact PA|exact S2]|left; exact S2].
Qed.

Lemma updateX_K f a b acc a' s : K a -> ag_updateX f a b acc = Ok (a', s) -> K a' /\ moved a a'.
Proof.
  intros HK E. unfold ag_updateX in E. destruct b; cbn [negb] in E.
  2: { injection E as <- <-. destruct acc; (split; [refine (K_same a _ HK _ _ _); reflexivity|]); (split; [apply same_data_refl|repeat split]). }
  dres E. destruct (build_agent a acc _ _ HK E0) as (S1 & S2 & W & O & U & _). destruct HK as (W0 & D1 & D2 & _ & _). rename E0 into EC.
  destruct b; cbn [negb] in E.
  - dres E. injection E as <- <-.
    split; [|split; [exact S1|repeat split]].
    split; [apply set_precon_wf; exact W|]. split; [exact D1|]. split; [exact D2|]. split; [exact U|].
    intros Hq Q HQ. exact (O Hq Q HQ).
  - injection E as <- <-. split; [|split; [exact S1|repeat split]]. exact (conj W (conj D1 (conj D2 (conj U O)))).
Qed.

Lemma restart_alike f f' a b : K a -> alike (okg a) f f' -> ag_restart f a b = ag_restart f' a b.
Proof.
  intros HK L. unfold ag_restart. destruct (p_accel (a_params a) && is_init a); [|reflexivity]. cbv zeta.
  rewrite (updateX_alike f f'); [reflexivity| |].
  - refine (K_same a _ HK _ _ _); reflexivity.
  - refine (alike_same a _ _ _ _ _ _ _ L); reflexivity.
Qed.
Lemma restart_K f a b a' : K a -> ag_restart f a b = Ok a' -> K a' /\ moved a a'.
Proof.
  intros HK E. unfold ag_restart in E. destruct (p_accel (a_params a) && is_init a).
  - dres E. injection E as <-. apply updateX_K in E0; [|refine (K_same a _ HK _ _ _); reflexivity]. exact E0.
  - injection E as <-. split; [exact HK|]. split; [apply same_data_refl|repeat split].
Qed.

Definition quiet3 a a' : Prop := a_pg a' = a_pg a /\ a_ndict a' = a_ndict a /\ a_naux a' = a_naux a /\ a_state a' = a_state a /\ a_params a' = a_params a.
Lemma gamma_q a a' : ag_updateGamma a = Ok a' -> quiet3 a a'.
Proof. intros E. unfold ag_updateGamma in E. dres E. injection E as <-. repeat split. Qed.
Lemma alpha_q a a' : ag_updateAlpha a = Ok a' -> quiet3 a a'.
Proof. intros E. unfold ag_updateAlpha in E. dres E. injection E as <-. repeat split. Qed.
Lemma Y_q x a a' : ag_updateY x a = Ok a' -> quiet3 a a'.
Proof. intros E. unfold ag_updateY in E. dres E. injection E as <-. repeat split. Qed.
Lemma V_q x a a' : ag_updateV x a = Ok a' -> quiet3 a a'.
Proof. intros E. unfold ag_updateV in E. dres E. injection E as <-. repeat split. Qed.
Lemma updateX_state f a b acc a' s : ag_updateX f a b acc = Ok (a', s) -> a_state a' = a_state a.
Proof.
  intros E. unfold ag_updateX in E. destruct b; cbn [negb] in E; [|injection E as <- _; destruct acc; reflexivity].
  dres E. destruct b; cbn [negb] in E; [|injection E as <- _; reflexivity]. dres E. injection E as <- _. reflexivity.
Qed.

(** One iteration, cut at its calls of [updateX]. *)
Lemma iterate_alike x f f' a b : K a -> alike (okg a) f f' -> ag_iterate x f a b = ag_iterate x f' a b.
Proof.
  intros HK L. unfold ag_iterate. cbv zeta.
  set (m := if robust _ then _ else _). destruct m as [a1| |] eqn:E1; cbn [bind]; try reflexivity. subst m.
  assert (Q1 : quiet3 a a1).
  { destruct (robust _) in E1; [dres E1|]; injection E1 as <-; repeat split. }
  clear E1. destruct Q1 as (P1 & N1 & M1 & _ & R1).
  assert (K1 : K a1) by (exact (K_same a a1 HK P1 N1 M1)). assert (L1 : alike (okg a1) f f') by (exact (alike_same a a1 f f' P1 N1 M1 R1 L)).
  clear HK L P1 N1 M1 R1. destruct (is_init a1); [|reflexivity].
  assert (K2 : K (sa_XPrev a1 (a_X a1))) by (refine (K_same a1 _ K1 _ _ _); reflexivity).
  assert (L2 : alike (okg (sa_XPrev a1 (a_X a1))) f f') by (refine (alike_same a1 _ _ _ _ _ _ _ L1); reflexivity).
  generalize dependent (sa_XPrev a1 (a_X a1)). clear K1 L1 a1. intros a2 K2 L2.
  match goal with |- bind ?u _ = bind ?v _ => assert (EE : u = v); [|rewrite EE; reflexivity] end.
  destruct (p_accel (a_params a2)); [|apply updateX_alike; auto].
  destruct (ag_updateGamma a2) as [a3| |] eqn:EG; cbn [bind]; try reflexivity. apply gamma_q in EG. destruct EG as (G1 & G2 & G3 & _ & G4).
  destruct (ag_updateAlpha a3) as [a4| |] eqn:EA; cbn [bind]; try reflexivity. apply alpha_q in EA. destruct EA as (A1 & A2 & A3 & _ & A4).
  destruct (ag_updateY x a4) as [a5| |] eqn:EY; cbn [bind]; try reflexivity. apply Y_q in EY. destruct EY as (Y1 & Y2 & Y3 & _ & Y4).
  assert (K5 : K a5) by (apply (K_same a2); [exact K2|congruence..]). assert (L5 : alike (okg a5) f f') by (apply (alike_same a2); [congruence..|exact L2]).
  rewrite <- (updateX_alike f f' a5 b true K5 L5).
  destruct (ag_updateX f a5 b true) as [[a6 s]| |] eqn:EX; cbn [bind]; try reflexivity. apply updateX_K in EX; auto. destruct EX as [K6 M6].
  pose proof (moved_alike _ _ _ _ M6 L5) as L6.
  destruct (ag_updateV x a6) as [a7| |] eqn:EV; cbn [bind]; try reflexivity. apply V_q in EV. destruct EV as (V1 & V2 & V3 & _ & V4).
  destruct (ag_shouldRestart a7) as [[|]| |]; cbn [bind]; try reflexivity.
  rewrite (restart_alike f f' a7 b); auto; [apply (K_same a6)|apply (alike_same a6)]; auto.
Qed.

End K.

Lemma updateStatus_q a s a' : ag_updateStatus a s = Ok a' -> quiet3 a a'.
Proof. intros E. unfold ag_updateStatus in E. dres E. injection E as <-. repeat split. Qed.
Lemma restart_state f a b a' : ag_restart f a b = Ok a' -> a_state a' = a_state a.
Proof.
  intros E. unfold ag_restart in E. destruct (_ && _) in E; [|injection E as <-; auto]. dres E. injection E as <-. apply updateX_state in E0. exact E0.
Qed.

(** ** The invariant of histories *)
Definition J (st : bool) a : Prop :=
  pg_useinact (a_pg a) = false /\ (a_state a <> INITIALIZED -> pg_Q (a_pg a) = None) /\ (st = false -> okQ (a_pg a)).

Lemma J_same st a a' : J st a -> a_pg a' = a_pg a -> a_state a' = a_state a -> J st a'.
Proof. unfold J. intros HJ -> ->. exact HJ. Qed.
Lemma J_weaken st st' a : J st a -> (st' = false -> st = false) -> J st' a.
Proof. intros (A & B & C) H. repeat split; auto. Qed.
Lemma J_none st a : pg_useinact (a_pg a) = false -> pg_Q (a_pg a) = None -> J st a.
Proof. intros U N. repeat split; auto. intros _ Q E. congruence. Qed.

Lemma modify_keeps g p f : pg_Q (modify g p f) = pg_Q g /\ pg_useinact (modify g p f) = pg_useinact g.
Proof. destruct p; auto. Qed.
Lemma modifies_keep f ps : forall g, let g' := fold_left (fun g p => modify g p f) ps g in pg_Q g' = pg_Q g /\ pg_useinact g' = pg_useinact g.
Proof.
  induction ps as [|p ps IH]; intros g; cbn [fold_left]; [auto|]. destruct (IH (modify g p f)) as [-> ->]. apply modify_keeps.
Qed.
Lemma initRobust_keeps a a' : ag_initializeRobustOptimization a = Ok a' ->
  pg_Q (a_pg a') = pg_Q (a_pg a) /\ pg_useinact (a_pg a') = pg_useinact (a_pg a) /\ a_state a' = a_state a.
Proof.
  intros E. unfold ag_initializeRobustOptimization in E. dres E. injection E as <-. cbn [sa_pg a_pg a_state].
  destruct (modifies_keep (fun m => if mfixed m then m else set_mweight n1 m) y (a_pg a)) as [A B]. auto.
Qed.
Lemma initAccel_keeps a a' : ag_initializeAcceleration a = Ok a' -> a_pg a' = a_pg a /\ a_state a' = a_state a.
Proof. intros E. unfold ag_initializeAcceleration in E. dres E. destruct (is_init a); injection E as <-; auto. Qed.
Lemma start_keeps a a' : ag_startOptimizationLoop a = Ok a' -> a_pg a' = a_pg a /\ a_state a' = a_state a.
Proof. intros E. unfold ag_startOptimizationLoop in E. dres E. destruct (a_thread a); injection E as <-; auto. Qed.
Lemma end_keeps a : a_pg (ag_endOptimizationLoop a) = a_pg a /\ a_state (ag_endOptimizationLoop a) = a_state a.
Proof. unfold ag_endOptimizationLoop. destruct (a_thread a); auto. Qed.
Lemma end_params a : a_params (ag_endOptimizationLoop a) = a_params a.
Proof. unfold ag_endOptimizationLoop. destruct (a_thread a); auto. Qed.

Lemma initGlobal_keeps a TW a' : ag_initializeInGlobalFrame a TW = Ok a' ->
  pg_Q (a_pg a') = pg_Q (a_pg a) /\ pg_useinact (a_pg a') = pg_useinact (a_pg a) /\ a_state a' = INITIALIZED /\
  (robust a = false -> a_pg a' = a_pg a).
Proof.
  intros E. unfold ag_initializeInGlobalFrame in E. dres E.
  assert (B : pg_Q (a_pg y5) = pg_Q (a_pg a) /\ pg_useinact (a_pg y5) = pg_useinact (a_pg a) /\ a_state y5 = INITIALIZED /\ (robust a = false -> a_pg y5 = a_pg a)).
  { match type of E6 with (if ?c then _ else _) = _ => assert (RB : c = robust a) by (unfold robust; cbn; rewrite end_params; reflexivity); rewrite RB in E6 end.
    destruct (end_keeps a) as [G1 _]. destruct (robust a).
    - apply initRobust_keeps in E6. cbn [a_pg a_state sa_state sa_XInit sa_X] in E6. destruct E6 as (A1 & A2 & A3).
      change (a_pg (ag_clearNeighborPoses (ag_endOptimizationLoop a))) with (a_pg (ag_endOptimizationLoop a)) in A1, A2.
      rewrite G1 in A1, A2. repeat split; auto. discriminate.
    - injection E6 as <-. cbn. rewrite G1. auto. }
  assert (B6 : a_pg y6 = a_pg y5 /\ a_state y6 = a_state y5).
  { destruct (p_accel (a_params y5)); [apply initAccel_keeps in E7; auto|injection E7 as <-; auto]. }
  destruct B6 as [P6 S6].
  assert (B7 : a_pg a' = a_pg y6 /\ a_state a' = a_state y6).
  { destruct (a_thread a); [apply start_keeps in E; auto|injection E as <-; auto]. }
  destruct B7 as [P7 S7]. rewrite P7, P6, S7, S6. exact B.
Qed.

Lemma setWeight_keeps a s t w b a' r : ag_setMeasurementWeight a s t w b = Ok (a', r) ->
  pg_Q (a_pg a') = pg_Q (a_pg a) /\ pg_useinact (a_pg a') = pg_useinact (a_pg a) /\ a_state a' = a_state a.
Proof.
  intros E. unfold ag_setMeasurementWeight in E. dres E. destruct y; injection E as <- <-; auto.
  destruct (modify_keeps (a_pg a) m (fun m => set_mfixed b (set_mweight w m))) as [A B]. auto.
Qed.

Lemma local_keeps x ls a a' T : local_trajectory x ls a = Ok (a', T) ->
  pg_Q (a_pg a') = pg_Q (a_pg a) /\ pg_useinact (a_pg a') = pg_useinact (a_pg a).
Proof.
  intros E. unfold local_trajectory in E. destruct (p_init (a_params a)).
  - dres E. injection E as <- _. auto.
  - dres E. injection E as <- _. auto.
  - dres E. injection E as <- _. clear E0 E1. revert a y0 E2. induction l as [|m ms IH]; intros a y0 E2; cbn [foldM] in E2.
    + injection E2 as <-. auto.
    + apply bind_Ok in E2. destruct E2 as (a1 & E1 & E2). apply IH in E2. destruct E2 as [-> ->].
      destruct (nltb _ _); [|injection E1 as <-; auto]. dres E1. injection E1 as <-. apply setWeight_keeps in E. intuition.
Qed.

Lemma adds_inact ms : forall g g', foldM addMeasurement g ms = Ok g' -> pg_useinact g' = pg_useinact g.
Proof.
  induction ms as [|m ms IH]; intros g g' E; cbn [foldM] in E.
  - injection E as <-. reflexivity.
  - apply bind_Ok in E. destruct E as (g1 & E1 & E). rewrite (IH _ _ E). clear E IH. rename E1 into HA. unfold addMeasurement in HA.
    destruct (mr1 m =? pg_id g)%N eqn:R1, (mr2 m =? pg_id g)%N eqn:R2; simpl in HA.
    + destruct (_ =? mp2 m)%N; [unfold addOdometry in HA|unfold addPrivateLoopClosure in HA];
      (destruct (hasMeasurement _ _ _); [injection HA as <-; auto|]);
      repeat (apply check_Ok in HA; destruct HA as [? HA]); injection HA as <-; auto.
    + unfold addSharedLoopClosure in HA. destruct (hasMeasurement _ _ _); [injection HA as <-; auto|].
      rewrite R1, R2 in HA. apply check_Ok in HA; destruct HA as [? HA]. apply Ok_injPGData in HA; rewrite <- HA; reflexivity.
    + unfold addSharedLoopClosure in HA. destruct (hasMeasurement _ _ _); [injection HA as <-; auto|].
      rewrite R1, R2 in HA. apply check_Ok in HA; destruct HA as [? HA]. apply Ok_injPGData in HA; rewrite <- HA; reflexivity.
    + injection HA as <-. auto.
Qed.

Definition L st (s0 : AgentState) a : Prop := pg_useinact (a_pg a) = false /\ a_state a = s0 /\ (K (negb st) a).
Lemma L_same st s0 a a' : quiet3 a a' -> L st s0 a -> L st s0 a'.
Proof.
  intros (Q1 & Q2 & Q3 & Q4 & _) (A & B & C). split; [rewrite Q1; exact A|]. split; [congruence|]. exact (K_same _ a a' C Q1 Q2 Q3).
Qed.
Lemma updateX_inact f a b acc a' s : ag_updateX f a b acc = Ok (a', s) -> pg_useinact (a_pg a') = pg_useinact (a_pg a).
Proof.
  intros E. unfold ag_updateX in E. destruct b; cbn [negb] in E; [|injection E as <- _; destruct acc; reflexivity].
  dres E. apply constructData_core in E0. unfold core_eq in E0. destruct E0 as (_ & _ & _ & _ & _ & _ & _ & _ & _ & _ & _ & V & _). cbn in V.
  destruct b; cbn [negb] in E; [|injection E as <- _; exact V]. dres E. injection E as <- _. exact V.
Qed.
Lemma updateX_L f st s0 a b acc a' s : L st s0 a -> ag_updateX f a b acc = Ok (a', s) -> L st s0 a'.
Proof.
  intros (A & B & C) E. split; [rewrite (updateX_inact _ _ _ _ _ _ E); exact A|]. split; [rewrite (updateX_state _ _ _ _ _ _ E); exact B|].
  exact (proj1 (updateX_K _ _ _ _ _ _ _ C E)).
Qed.
Lemma restart_L f st s0 a b a' : L st s0 a -> ag_restart f a b = Ok a' -> L st s0 a'.
Proof.
  intros HL E. unfold ag_restart in E. destruct (p_accel (a_params a) && is_init a); [|injection E as <-; exact HL].
  dres E. injection E as <-. assert (HL1 : L st s0 (sa_X a (a_XPrev a))) by (refine (L_same st s0 a _ _ HL); repeat split).
  pose proof (updateX_L _ _ _ _ _ _ _ _ HL1 E0) as HL2. refine (L_same st s0 a0 _ _ HL2). repeat split.
Qed.
Lemma iterate_L x f st s0 a b a' s : L st s0 a -> ag_iterate x f a b = Ok (a', s) -> L st s0 a'.
Proof.
  intros HL E. unfold ag_iterate in E. cbv zeta in E. apply bind_Ok in E. destruct E as (a1 & E1 & E).
  assert (Q1 : quiet3 a a1).
  { match type of E1 with (if ?c then _ else _) = _ => destruct c end; [dres E1|]; injection E1 as <-; repeat split. }
  apply (L_same _ _ _ _ Q1) in HL. clear E1 Q1. destruct (is_init a1); [|injection E as <- _; exact HL].
  apply bind_Ok in E. destruct E as ([a2 s2] & E2 & E). apply bind_Ok in E. destruct E as (a3 & E3 & E).
  assert (HL1 : L st s0 (sa_XPrev a1 (a_X a1))) by (refine (L_same st s0 a1 _ _ HL); repeat split).
  assert (HL2 : L st s0 a2).
  { revert HL1 E2. generalize (sa_XPrev a1 (a_X a1)). intros b0 HL1 E2. destruct (p_accel (a_params b0)).
    - apply bind_Ok in E2. destruct E2 as (b1 & F1 & E2). apply gamma_q in F1. apply (L_same _ _ _ _ F1) in HL1.
      apply bind_Ok in E2. destruct E2 as (b2 & F2 & E2). apply alpha_q in F2. apply (L_same _ _ _ _ F2) in HL1.
      apply bind_Ok in E2. destruct E2 as (b3 & F3 & E2). apply Y_q in F3. apply (L_same _ _ _ _ F3) in HL1.
      apply bind_Ok in E2. destruct E2 as ([b4 s4] & F4 & E2). pose proof (updateX_L _ _ _ _ _ _ _ _ HL1 F4) as HL4.
      apply bind_Ok in E2. destruct E2 as (b5 & F5 & E2). apply V_q in F5. apply (L_same _ _ _ _ F5) in HL4.
      apply bind_Ok in E2. destruct E2 as (again & F6 & E2). apply bind_Ok in E2. destruct E2 as (b6 & F7 & E2). injection E2 as <- _.
      destruct again; [exact (restart_L _ _ _ _ _ _ HL4 F7)|injection F7 as <-; exact HL4].
    - exact (updateX_L _ _ _ _ _ _ _ _ HL1 E2). }
  assert (HL3 : L st s0 a3).
  { destruct b; [apply updateStatus_q in E3; exact (L_same _ _ _ _ E3 HL2)|injection E3 as <-; exact HL2]. }
  injection E as <- _. match goal with |- L _ _ (sa_pubasync ?u true) => refine (L_same st s0 a3 (sa_pubasync u true) _ HL3) end.
  match goal with |- quiet3 _ (sa_pubasync (if ?c then _ else _) _) => destruct c end; repeat split.
Qed.

Lemma inv_K q a : AInv a -> pg_useinact (a_pg a) = false -> (q = true -> okQ (a_pg a)) -> K q a.
Proof. intros I U O. split; [apply I|]. split; [apply (iv_nd _ I)|]. split; [apply (iv_na _ I)|]. auto. Qed.
Lemma J_L st a : AInv a -> J st a -> L st (a_state a) a.
Proof. intros I (A & B & C). split; auto. split; auto. apply inv_K; auto. intros Z. apply C. destruct st; [discriminate|reflexivity]. Qed.
Lemma L_J st a a' : a_state a = INITIALIZED -> L st (a_state a) a' -> J st a'.
Proof. intros E (A & B & C). split; auto. split; [congruence|]. intros ->. apply C. reflexivity. Qed.

Lemma not_init a : a_state a <> INITIALIZED -> is_init a = false.
Proof. unfold is_init. destruct (a_state a); intros N; try reflexivity. congruence. Qed.
Lemma iterate_idle x f a b a' s : a_state a <> INITIALIZED -> ag_iterate x f a b = Ok (a', s) -> quiet3 a a'.
Proof.
  intros N E. unfold ag_iterate in E. cbv zeta in E. apply bind_Ok in E. destruct E as (a1 & E1 & E).
  assert (Q1 : quiet3 a a1).
  { match type of E1 with (if ?c then _ else _) = _ => destruct c end; [dres E1|]; injection E1 as <-; repeat split. }
  rewrite not_init in E; [injection E as <- _; exact Q1|]. destruct Q1 as (_ & _ & _ & -> & _). exact N.
Qed.
Lemma iterate_J x f st a b a' s : AInv a -> J st a -> ag_iterate x f a b = Ok (a', s) -> J st a'.
Proof.
  intros I HJ E. destruct (state_eqb (a_state a) INITIALIZED) eqn:ES.
  - assert (EI : a_state a = INITIALIZED) by (destruct (a_state a); [discriminate..|reflexivity]).
    apply (L_J st a); auto. eapply iterate_L; eauto using J_L.
  - assert (N : a_state a <> INITIALIZED) by (intros Z; rewrite Z in ES; discriminate).
    destruct (iterate_idle _ _ _ _ _ _ N E) as (Q1 & _ & _ & Q4 & _). apply (J_same st a); auto.
Qed.
Lemma restart_J f st a b a' : AInv a -> J st a -> ag_restart f a b = Ok a' -> J st a'.
Proof.
  intros I HJ E. destruct (state_eqb (a_state a) INITIALIZED) eqn:ES.
  - assert (EI : a_state a = INITIALIZED) by (destruct (a_state a); [discriminate..|reflexivity]).
    apply (L_J st a); auto. eapply restart_L; eauto using J_L.
  - assert (N : a_state a <> INITIALIZED) by (intros Z; rewrite Z in ES; discriminate).
    unfold ag_restart in E. rewrite (not_init a N), andb_false_r in E. injection E as <-. exact HJ.
Qed.

Lemma init_keeps x ls a (T : option (PoseArr S)) a' : pg_useinact (a_pg a) = false -> pg_Q (a_pg a) = None -> ag_initialize x ls a T = Ok a' ->
  pg_useinact (a_pg a') = false /\ pg_Q (a_pg a') = None.
Proof.
  intros U N E. unfold ag_initialize in E. destruct (negb _) in E; [injection E as <-; auto|]. cbv zeta in E.
  destruct (end_keeps a) as [G _]. rewrite <- G in U, N. revert U N E. generalize (ag_endOptimizationLoop a). clear a G. intros a U N E.
  destruct (_ =? 0)%N in E; [injection E as <-; auto|]. apply bind_Ok in E. destruct E as ([a1 T1] & E1 & E).
  assert (B1 : pg_useinact (a_pg a1) = false /\ pg_Q (a_pg a1) = None).
  { match type of E1 with match ?t with _ => _ end = _ => destruct t end; [injection E1 as <- _; auto|].
    dres E1. injection E1 as <- _. apply local_keeps in E0. destruct E0 as [-> ->]. auto. }
  clear U N E1. destruct B1 as [U N]. dres E.
  assert (B2 : pg_useinact (a_pg y1) = false /\ pg_Q (a_pg y1) = None).
  { match type of E2 with (if ?c then _ else _) = _ => destruct c end; [|injection E2 as <-; auto].
    dres E2. apply initGlobal_keeps in E2. destruct E2 as (A1 & A2 & _). rewrite A1, A2. auto. }
  destruct (p_async _) in E; [apply start_keeps in E; destruct E as [-> _]|injection E as <-]; auto.
Qed.

Lemma setActive_J st a k b a' : AInv a -> J st a -> ag_setRobotActive a k b = Ok a' ->
  J (if renews a (ASetActive k b) then false else st) a'.
Proof.
  intros I HJ E. unfold ag_setRobotActive in E. cbn [renews]. rewrite N.ltb_antisym.
  destruct (p_numRobots (a_params a) <=? k)%N; cbn [negb andb] in E |- *; [injection E as <-; exact HJ|]. dres E.
  cbn [a_pg sa_active] in E. unfold isNeighborActive. fold (hasNeighbor (a_pg a) k).
  destruct (hasNeighbor (a_pg a) k) eqn:HN; cbn [negb andb]; [|injection E as <-; exact HJ]. dres E. injection E as <-.
  unfold setNeighborActive in E0. rewrite HN in E0. cbn [negb] in E0.
  destruct (mfind N.ltb k (pg_active (a_pg a))) as [b0|] eqn:F; [|discriminate E0]. injection E0 as <-.
  destruct (eqb b0 b) eqn:Eb; cbn [negb].
  - apply eqb_prop in Eb. subst b0. destruct HJ as (A & B & C'). split; [exact A|]. split; [exact B|].
    intros Z Q EQ. cbn [a_pg sa_pg sa_active] in EQ |- *.
    assert (CE : core_eq (a_pg a) (set_pg_active (a_pg a) (mset N.ltb k b (pg_active (a_pg a))))).
    { unfold core_eq. cbn. rewrite (mset_same _ _ _ (wf_active_sorted _ (iv_pg _ I)) F). repeat split. }
    rewrite (Qfull_ext _ _ CE). apply (C' Z). exact EQ.
  - apply J_none; [exact (proj1 HJ)|reflexivity].
Qed.

Lemma setPrior_keeps g i M g' : setPrior g i M = Ok g' -> pg_Q g' = pg_Q g /\ pg_useinact g' = pg_useinact g.
Proof. intros E. unfold setPrior in E. dres E. injection E as <-. auto. Qed.

(** A call that keeps the stored matrix but changes the data. *)
Lemma kept_J st a a' : J st a -> pg_Q (a_pg a') = pg_Q (a_pg a) -> pg_useinact (a_pg a') = pg_useinact (a_pg a) ->
  (a_state a' = a_state a \/ a_state a' = INITIALIZED) -> J (st || some (pg_Q (a_pg a))) a'.
Proof.
  intros (A & B & C) EQ EU ES. split; [congruence|]. split.
  - intros N. rewrite EQ. apply B. destruct ES; congruence.
  - intros Z. apply orb_false_iff in Z. destruct Z as [_ Z]. apply some_false in Z. intros Q E. congruence.
Qed.

Lemma mid_pg a c : a_pg (weights_mid a c) = clearDataMatrices (a_pg a).
Proof. reflexivity. Qed.
Lemma wreset_pg a a' : weights_reset a = Ok a' -> a_pg a' = a_pg a.
Proof.
  intros E. unfold weights_reset in E. destruct (a_trc a <? p_nreset (a_params a))%Z; [|injection E as <-; auto]. dres E. injection E as <-.
  unfold ag_setXToInitialGuess in E0. dres E0. match type of E0 with match ?t with _ => _ end = _ => destruct t end; [|discriminate E0].
  injection E0 as <-. reflexivity.
Qed.
Lemma updWeights_J st a a' : J st a -> ag_updateMeasurementWeights a = Ok a' -> J (if is_init a then false else st) a'.
Proof.
  intros HJ E. unfold ag_updateMeasurementWeights in E. destruct (is_init a) eqn:EI; cbn [negb] in E; [|injection E as <-; exact HJ].
  dres E. 
  assert (U : pg_useinact (a_pg y0) = false).
  { destruct HJ as (U & _). clear - U E1. revert a U E1. induction y as [|p ps IH]; intros a U E; cbn [foldM] in E.
    - injection E as <-. exact U.
    - apply bind_Ok in E. destruct E as (a1 & E1 & E). apply IH in E; auto. unfold reweight_one in E1.
      destruct (deref _ _); [|discriminate E1]. destruct (mfixed m); [injection E1 as <-; exact U|]. dres E1. destruct y; injection E1 as <-; auto.
      cbn [a_pg sa_pg]. rewrite (proj2 (modify_keeps _ _ _)). exact U. }
  assert (B : pg_useinact (a_pg y2) = false /\ pg_Q (a_pg y2) = None).
  { pose proof (mid_pg y0 y1) as P. revert E3 P. generalize (weights_mid y0 y1). intros b E3 P. apply wreset_pg in E3. rewrite E3, P. auto. }
  destruct B as [B1 B2]. destruct (p_accel (a_params y2)); [apply initAccel_keeps in E; destruct E as [EP _]; apply J_none; rewrite EP; auto|].
  injection E as <-. apply J_none; auto.
Qed.

Lemma setX_J st a (X : Mx S) a' : J st a -> ag_setX a X = Ok a' -> J st a'.
Proof.
  intros (A & B & C) E. unfold ag_setX in E. dres E.
  assert (P : a_pg a' = a_pg a /\ a_state a' = INITIALIZED).
  { match type of E with (if ?c then _ else _) = _ => destruct c end; [apply initAccel_keeps in E; exact E|injection E as <-; auto]. }
  destruct P as [P1 P2]. split; [congruence|]. rewrite P1, P2. split; [congruence|exact C].
Qed.

Lemma reset_pg x a a' : ag_reset x a = Ok a' -> a_pg a' = pg_reset (a_pg a).
Proof.
  intros E. unfold ag_reset in E. dres E. injection E as <-. rewrite <- (proj1 (end_keeps a)). generalize (ag_endOptimizationLoop a). reflexivity.
Qed.

Lemma step_J x st a o a' : AInv a -> aop_ok o -> J st a -> ag_step x a o = Ok a' ->
  J (if renews a o then false else st || spoils a o) a'.
Proof.
  intros I Ho HJ E.
  assert (Keep : spoils a o = false -> renews a o = false -> J st a' -> J (if renews a o then false else st || spoils a o) a').
  { intros -> ->. rewrite orb_false_r. auto. }
  assert (Sp : forall b : bool, (if b then some (pg_Q (a_pg a)) else false) = match pg_Q (a_pg a) with Some _ => b | None => false end)
    by (intros []; destruct (pg_Q (a_pg a)); reflexivity).
  destruct o; cbn [ag_step] in E.
  - apply Keep; [unfold spoils; destruct (pg_Q _); reflexivity|reflexivity|]. eapply setX_J; eauto.
  - apply Keep; [unfold spoils; destruct (pg_Q _); reflexivity|reflexivity|]. unfold ag_setXToInitialGuess in E. dres E.
    match type of E with match ?t with _ => _ end = _ => destruct t end; [|discriminate E]. injection E as <-. exact HJ.
  - apply Keep; [unfold spoils; destruct (pg_Q _); reflexivity|reflexivity|]. unfold ag_addMeasurement in E.
    destruct (state_eqb (a_state a) WAIT_FOR_DATA) eqn:ES; cbn [negb] in E; [|injection E as <-; exact HJ]. dres E. injection E as <-.
    destruct HJ as (U & N & _). assert (NQ : pg_Q (a_pg a) = None) by (apply N; intros Z; rewrite Z in ES; discriminate).
    apply J_none; cbn [a_pg sa_pg].
    + rewrite (adds_inact [m] (a_pg a) y); auto. cbn [foldM]. rewrite E0. reflexivity.
    + rewrite (proj1 (add_caches _ _ _ E0)). exact NQ.
  - apply Keep; [unfold spoils; destruct (pg_Q _); reflexivity|reflexivity|]. unfold ag_setMeasurements in E. dres E.
    destruct od; [injection E as <-; exact HJ|]. dres E. injection E as <-. unfold setMeasurements in E1.
    apply J_none; cbn [a_pg sa_pg].
    + rewrite (adds_inact _ _ _ E1). unfold newPoseGraph in E0. dres E0. injection E0 as <-. reflexivity.
    + rewrite (proj1 (adds_caches _ _ _ E1)). reflexivity.
  - apply Keep; [unfold spoils; destruct (pg_Q _); reflexivity|reflexivity|].
    destruct (state_eqb (a_state a) WAIT_FOR_DATA) eqn:ES.
    + destruct HJ as (U & N & _). assert (NQ : pg_Q (a_pg a) = None) by (apply N; intros Z; rewrite Z in ES; discriminate).
      destruct (init_keeps _ _ _ _ _ U NQ E). apply J_none; auto.
    + unfold ag_initialize in E. rewrite ES in E. injection E as <-. exact HJ.
  - apply initGlobal_keeps in E. destruct E as (E1 & E2 & E3 & E4). cbn [renews]. unfold spoils.
    destruct (robust a) eqn:ER.
    + assert (CT : match costType (p_robust (a_params a)) with L2 => false | _ => true end = true).
      { revert ER. unfold robust. destruct (costType (p_robust (a_params a))); auto. }
      rewrite CT. pose proof (kept_J _ _ _ HJ E1 E2 (or_intror E3)) as R. destruct (pg_Q (a_pg a)); exact R.
    + assert (CT : match costType (p_robust (a_params a)) with L2 => false | _ => true end = false).
      { revert ER. unfold robust. destruct (costType (p_robust (a_params a))); auto; discriminate. }
      rewrite CT. assert (Z : st || match pg_Q (a_pg a) with Some _ => false | None => false end = st) by (destruct st, (pg_Q (a_pg a)); reflexivity).
      rewrite Z. destruct HJ as (U & N & C). specialize (E4 eq_refl). split; [congruence|]. rewrite E4. split; [congruence|exact C].
  - apply Keep; [unfold spoils; destruct (pg_Q _); reflexivity|reflexivity|]. dres E. injection E as <-. eapply iterate_J; eauto.
  - apply Keep; [unfold spoils; destruct (pg_Q _); reflexivity|reflexivity|]. destruct (a_thread a); [|injection E as <-; exact HJ]. dres E. injection E as <-. eapply iterate_J; eauto.
  - cbn [renews]. apply reset_pg in E. apply J_none; rewrite E; [exact (proj1 HJ)|reflexivity].
  - apply Keep; [unfold spoils; destruct (pg_Q _); reflexivity|reflexivity|]. apply start_keeps in E. destruct E. apply (J_same st a); auto.
  - apply Keep; [unfold spoils; destruct (pg_Q _); reflexivity|reflexivity|]. injection E as <-. destruct (end_keeps a). apply (J_same st a); auto.
  - apply Keep; [unfold spoils; destruct (pg_Q _); reflexivity|reflexivity|]. eapply restart_J; eauto.
  - apply Keep; [unfold spoils; destruct (pg_Q _); reflexivity|reflexivity|]. unfold ag_updateNeighborPoses in E. dres E.
    destruct (negb _) in E; [injection E as <-; exact HJ|]. dres E.
    assert (HJ1 : J st y).
    { destruct (state_eqb (a_state a) WAIT_FOR_INITIALIZATION) eqn:ES; [|injection E0 as <-; exact HJ]. dres E0.
      destruct y0 as [T|]; [|injection E0 as <-; exact HJ]. apply initGlobal_keeps in E0. destruct E0 as (F1 & F2 & _).
      destruct HJ as (U & N & _). assert (NQ : pg_Q (a_pg a) = None) by (apply N; intros Z; rewrite Z in ES; discriminate).
      apply J_none; congruence. }
    destruct (negb _) in E; [injection E as <-; exact HJ1|]. dres E. injection E as <-. exact HJ1.
  - apply Keep; [unfold spoils; destruct (pg_Q _); reflexivity|reflexivity|]. unfold ag_updateAuxNeighborPoses in E. dres E.
    destruct (negb _) in E; [injection E as <-; exact HJ|]. destruct (negb _) in E; [injection E as <-; exact HJ|]. dres E. injection E as <-. exact HJ.
  - apply Keep; [unfold spoils; destruct (pg_Q _); reflexivity|reflexivity|]. injection E as <-. exact HJ.
  - apply Keep; [unfold spoils; destruct (pg_Q _); reflexivity|reflexivity|]. unfold ag_clearActiveNeighborPoses in E. dres E. injection E as <-. exact HJ.
  - apply Keep; [unfold spoils; destruct (pg_Q _); reflexivity|reflexivity|]. unfold ag_setLiftingMatrix in E. dres E. injection E as <-. exact HJ.
  - apply Keep; [unfold spoils; destruct (pg_Q _); reflexivity|reflexivity|]. unfold ag_setGlobalAnchor in E. dres E. injection E as <-. exact HJ.
  - apply Keep; [unfold spoils; destruct (pg_Q _); reflexivity|reflexivity|]. injection E as <-. exact HJ.
  - apply Keep; [unfold spoils; destruct (pg_Q _); reflexivity|reflexivity|]. injection E as <-. exact HJ.
  - pose proof (setActive_J _ _ _ _ _ I HJ E) as R. unfold spoils.
    assert (Z : st || match pg_Q (a_pg a) with Some _ => false | None => false end = st) by (destruct st, (pg_Q (a_pg a)); reflexivity).
    rewrite Z. exact R.
  - pose proof (updWeights_J _ _ _ HJ E) as R. cbn [renews]. unfold is_init in R. unfold spoils.
    assert (Z : st || match pg_Q (a_pg a) with Some _ => false | None => false end = st) by (destruct st, (pg_Q (a_pg a)); reflexivity).
    rewrite Z. destruct (a_state a); exact R.
  - dres E. injection E as <-. apply setWeight_keeps in E0. destruct E0 as (E1 & E2 & E3). cbn [renews]. unfold spoils.
    pose proof (kept_J _ _ _ HJ E1 E2 (or_introl E3)) as R. destruct (pg_Q (a_pg a)); exact R.
  - apply initRobust_keeps in E. destruct E as (E1 & E2 & E3). cbn [renews]. unfold spoils.
    pose proof (kept_J _ _ _ HJ E1 E2 (or_introl E3)) as R. destruct (pg_Q (a_pg a)); exact R.
  - dres E. injection E as <-. unfold ag_anchorFirstPose in E0. cbn [renews]. unfold spoils.
    assert (R : J (st || some (pg_Q (a_pg a))) a0); [|destruct (pg_Q (a_pg a)); exact R].
    destruct (_ <? _)%nat in E0; [|injection E0 as <- _; apply (kept_J st a); auto].
    dres E0. injection E0 as <- _. destruct (setPrior_keeps _ _ _ _ E1). apply (kept_J st a); auto.
  - dres E. injection E as <-. unfold ag_anchorFirstPoseWith in E0. cbn [renews]. unfold spoils.
    assert (R : J (st || some (pg_Q (a_pg a))) a0); [|destruct (pg_Q (a_pg a)); exact R].
    dres E0. injection E0 as <- _. destruct (setPrior_keeps _ _ _ _ E). apply (kept_J st a); auto.
Qed.

Lemma new_J x id p a : newAgent x id p = Ok a -> J false a.
Proof.
  intros E. unfold newAgent in E. dres E. injection E as <-. unfold newPoseGraph in E1. dres E1. injection E1 as <-.
  match type of E2 with (if ?c then _ else _) = _ => destruct c end; [unfold ag_setLiftingMatrix in E2; dres E2|]; injection E2 as <-; apply J_none; reflexivity.
Qed.

Lemma run_J x os : forall st a a', AInv a -> Forall aop_ok os -> J st a -> ag_run x a os = Ok a' -> J (spoilt x st a os) a'.
Proof.
  induction os as [|o os IH]; intros st a a' I F HJ E; cbn [spoilt].
  - injection E as <-. exact HJ.
  - unfold ag_run in E. cbn [foldM] in E. apply bind_Ok in E. destruct E as (a1 & E1 & E). rewrite E1. inversion F; subst.
    apply IH; auto; [eapply step_inv; eauto|eapply step_J; eauto].
Qed.

Lemma calls_alike x q a o o' : K q a -> alike_calls (okg q a) o o' -> ag_step x a o = ag_step x a o'.
Proof.
  intros HK AL. destruct o; cbn [alike_calls] in AL; try (destruct o'; contradiction);
    destruct o'; try contradiction; cbn [ag_step].
  - destruct AL as [AL <-]. rewrite (iterate_alike q x opt opt0 a b HK AL). reflexivity.
  - rewrite (iterate_alike q x opt opt0 a true HK AL). reflexivity.
  - destruct AL as [AL <-]. apply (restart_alike q); auto.
Qed.
Lemma alike_calls_mono (P P' : PoseGraph S -> Prop) o o' : (forall g, P' g -> P g) -> alike_calls P o o' -> alike_calls P' o o'.
Proof. intros M. unfold alike_calls, alike. destruct o, o'; intuition. Qed.

Lemma reach_J x id p os a0 a : newAgent x id p = Ok a0 -> ag_run x a0 os = Ok a -> Forall aop_ok os ->
  AInv a /\ J (spoilt x false a0 os) a.
Proof.
  intros E0 E F. split; [apply (areach_inv x id p os); split; auto; rewrite E0; exact E|].
  assert (I0 : AInv a0) by (apply (areach_inv x id p []); split; [rewrite E0; reflexivity|constructor]).
  exact (run_J x os false a0 a I0 F (new_J _ _ _ _ E0) E).
Qed.

Lemma c67_fresh x id p os a0 a o o' : newAgent x id p = Ok a0 -> ag_run x a0 os = Ok a -> Forall aop_ok os ->
  spoilt x false a0 os = false -> alike_calls (proper a) o o' -> ag_step x a o = ag_step x a o'.
Proof.
  intros E0 E F SP AL. destruct (reach_J _ _ _ _ _ _ E0 E F) as [I HJ]. rewrite SP in HJ. destruct HJ as (U & _ & O).
  apply (calls_alike x true); [apply inv_K; auto|]. revert AL. apply alike_calls_mono. intros g [G1 G2]. split; auto.
Qed.
Lemma c67_rest x id p os a0 a o o' : newAgent x id p = Ok a0 -> ag_run x a0 os = Ok a -> Forall aop_ok os ->
  alike_calls (handed a) o o' -> ag_step x a o = ag_step x a o'.
Proof.
  intros E0 E F AL. destruct (reach_J _ _ _ _ _ _ E0 E F) as [I (U & _)].
  apply (calls_alike x false); [apply inv_K; auto; discriminate|]. revert AL. apply alike_calls_mono. intros g [G1 _]. exact G1.
Qed.
End A.
