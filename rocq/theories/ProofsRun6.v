(** The multi-robot example: the robots before the loop. *)
From Coq Require Import List NArith ZArith Bool Arith Lia Lra Reals Permutation.
From Verif Require Import Base SMap Num RSum Det MatR ModelTypes ModelPoseGraph ModelProblem ModelRobust ModelPoses ModelSolver ModelAgent ModelExample ModelExampleRun
  SpecPoseGraph SpecPGHist SpecCost SpecSolver SpecAgent SpecFrames SpecExample SpecInit SpecRun ProofsPoseGraph ProofsPGHist ProofsPGMain ProofsPGData ProofsCost ProofsCost2 ProofsCost4 ProofsPoses ProofsOdom
  ProofsExample ProofsExample2 ProofsExample3 ProofsAgent ProofsAgent2 ProofsAgent3 ProofsFrames ProofsFrames2 ProofsRun ProofsRun2 ProofsRun3 ProofsRun4 ProofsRun5.
Import ListNotations.
Local Open Scope res_scope.
Implicit Types (g : PoseGraph R) (a : Agent R).

Lemma unit_rot d A : beq d A unit_block -> rot_block d A.
Proof.
  intros E. split.
  - intros b c Hb Hc. destruct (Nat.eqb_spec b c) as [<-|Hn].
    + rewrite (rsum_ext d _ (fun k => if Nat.eqb k b then 1 else 0)%R).
      * exact (rsum_delta d b (fun _ => 1%R) Hb).
      * intros k Hk. rewrite (E k b) by lia. unfold unit_block. destruct (Nat.eqb k b); lra.
    + apply rsum_zero. intros k Hk. rewrite (E k b), (E k c) by lia. unfold unit_block. destruct (Nat.eqb_spec k b), (Nat.eqb_spec k c); try lra. congruence.
  - rewrite <- (det_idm d). apply det_ext. intros i j Hi Hj. rewrite E by lia. reflexivity.
Qed.

Lemma initAccel_total a : p_accel (a_params a) = true -> exists a', ag_initializeAcceleration a = Ok a' /\ a_pg a' = a_pg a.
Proof. intros Ha. unfold ag_initializeAcceleration. rewrite Ha. cbn [check]. destruct (is_init a); eexists; split; reflexivity. Qed.

Lemma initGlobal_total a TW YL T : AInv a -> a_state a <> WAIT_FOR_DATA -> a_thread a = false -> robust a = false -> a_YLift a = Some YL -> a_TLocal a = Some T ->
  wf1 (p_d (a_params a)) TW -> exists a', ag_initializeInGlobalFrame a TW = Ok a' /\ a_pg a' = a_pg a.
Proof.
  intros I Hst Ht Hr HY HT WW. unfold ag_initializeInGlobalFrame. rewrite HY. cbn [bind]. rewrite endLoop_form. pose proof WW as (W1 & W2 & W3 & W4 & W5).
  unfold dimension. rewrite (iv_d _ I), W2, Nat.eqb_refl. cbn [check].
  assert (R0 : exists M, pa_rot TW 0 = Ok M /\ mrows M = mcols M).
  { unfold pa_rot. rewrite W3. cbn [Nat.ltb Nat.leb check]. eexists. split; [reflexivity|]. cbn. congruence. }
  destruct R0 as (M & -> & HM). cbn [bind]. unfold checkRotationMatrix. rewrite HM, Nat.eqb_refl. cbn [check bind].
  change (a_TLocal (ag_clearNeighborPoses (sa_thread a false))) with (a_TLocal a). rewrite HT. cbn [opt_value bind].
  change (num_poses (ag_clearNeighborPoses (sa_thread a false))) with (num_poses a).
  destruct (iv_T _ I _ HT) as [_ AT]. destruct (transform_all_spec _ _ _ _ WW (arr_traj _ _ _ AT)) as (T' & -> & (T1 & T2 & T3 & T4 & T5) & _). cbn [bind].
  destruct (iv_Y _ I _ HY) as [Y1 Y2]. unfold can_mul. rewrite Y2, T4, Nat.eqb_refl. cbn [require].
  change (a_X (ag_clearNeighborPoses (sa_thread a false))) with (a_X a).
  destruct (iv_X _ I Hst) as [_ AX].
  destruct (setData_total (a_X a) (mmul YL (pa_X T')) AX) as (X & -> & _); [cbn; exact Y1|cbn; exact T5|]. cbn [bind].
  match goal with |- context [robust ?A] => change (robust A) with (robust a) end. rewrite Hr. cbn [bind]. rewrite Ht.
  match goal with |- context [if p_accel (a_params ?A) then _ else _] => change (p_accel (a_params A)) with (p_accel (a_params a)); set (a1 := A) end.
  destruct (p_accel (a_params a)) eqn:Ha.
  - destruct (initAccel_total a1 Ha) as (a2 & -> & E2). cbn [bind]. exists a2. split; [reflexivity|]. rewrite E2. reflexivity.
  - cbn [bind]. exists a1. split; reflexivity.
Qed.

Section R.
Context (x : Ext R) (ls : LocalSolvers R) (d r : nat) (n m : N) (ds : list (Meas R)) (acc : bool).
Context (HDs : dataset_ok d r n m ds) (HI : inverse_ok (x_minv x) d) (HFY : mrows (x_fixedY x d r) = r /\ mcols (x_fixedY x d r) = d).
Notation P := (ex_params (S := R) d r m acc).
Notation stored := (stored d r n m ds).

(** A robot between [initialize] and [setX]. *)
Record Ready (k : N) (a : Agent R) : Prop := {
  rd_inv : AInv a; rd_id : a_id a = k; rd_P : a_params a = P; rd_st : a_state a <> WAIT_FOR_DATA; rd_inst : a_inst a = 0%N;
  rd_it : a_iter a = 0%N; rd_Y : a_YLift a <> None; rd_th : a_thread a = false; rd_pg : stored k (a_pg a) }.

Lemma init_total k a : (k < m)%N -> AInv a -> a_id a = k -> a_params a = P -> a_state a = WAIT_FOR_DATA -> a_inst a = 0%N -> a_iter a = 0%N ->
  a_YLift a <> None -> a_thread a = false -> stored k (a_pg a) ->
  exists a', ag_initialize x ls a None = Ok a' /\ Ready k a' /\ a_YLift a' = a_YLift a.
Proof.
  intros Hk I Hid HP Hst Hin Hit HY Ht HS. destruct (size_two d r n m ds HDs k Hk) as [S2 SL].
  assert (Dd : p_d (a_params a) = d) by (rewrite HP; reflexivity). assert (Dr : p_r (a_params a) = r) by (rewrite HP; reflexivity).
  pose proof (st_n _ _ _ _ _ _ _ HS) as PN. destruct (a_YLift a) as [YL|] eqn:EY; [|congruence].
  assert (E : exists a', ag_initialize x ls a None = Ok a' /\ a_pg a' = a_pg a /\ a_inst a' = 0%N /\ a_iter a' = 0%N /\ a_YLift a' = Some YL /\ a_thread a' = false /\ a_id a' = k /\ a_params a' = P /\ a_state a' <> WAIT_FOR_DATA).
  { unfold ag_initialize. rewrite Hst. cbn [state_eqb negb]. rewrite endLoop_form. cbv zeta.
    change (pg_n (a_pg (sa_thread a false))) with (pg_n (a_pg a)). destruct (N.eqb_spec (pg_n (a_pg a)) 0) as [?|Nz]; [lia|].
    unfold local_trajectory. change (a_params (sa_thread a false)) with (a_params a). rewrite HP. cbn [p_init ex_params].
    change (a_pg (sa_thread a false)) with (a_pg a). rewrite (st_odom _ _ _ _ _ _ _ HS).
    destruct (odometry_chain d _ (odo_chain d r n m ds HDs k Hk)) as (T & -> & TT & T0 & _). rewrite (odo_len d r n m ds HDs k Hk) in TT. cbn [bind].
    change (dimension (sa_thread a false)) with (pg_d (a_pg a)). rewrite (st_d _ _ _ _ _ _ _ HS). pose proof TT as (Q1 & Q2 & Q3 & Q4 & Q5). rewrite Q2, Nat.eqb_refl. cbn [check bind].
    change (num_poses (sa_thread a false)) with (num_poses a). assert (NP : num_poses a = N.to_nat (size_of n m k)) by (unfold num_poses; rewrite PN; reflexivity).
    destruct (to_first_frame_spec x d (num_poses a) T HI) as (T' & ET' & TT' & _).
    { lia. } { lia. } { rewrite Q3. exact TT. } { apply unit_rot. intros i j Hi Hj. rewrite T0 by auto. reflexivity. }
    change (dimension (sa_thread a false)) with (pg_d (a_pg a)). rewrite (st_d _ _ _ _ _ _ _ HS).
    rewrite ET'. cbn [bind]. change (relaxation_rank (sa_TLocal (sa_thread a false) (Some T'))) with (pg_r (a_pg a)).
    change (dimension (sa_TLocal (sa_thread a false) (Some T'))) with (pg_d (a_pg a)). change (num_poses (sa_TLocal (sa_thread a false) (Some T'))) with (num_poses a).
    rewrite (st_d _ _ _ _ _ _ _ HS), (st_r _ _ _ _ _ _ _ HS). destruct (pa_new_spec (S := R) r d (num_poses a)) as (X & EX & _); [pose proof HDs; unfold dataset_ok in *; tauto|].
    rewrite EX. cbn [bind]. set (a1 := sa_state (sa_X (sa_TLocal (sa_thread a false) (Some T')) X) WAIT_FOR_INITIALIZATION).
    change (a_id a1) with (a_id a). change (a_params a1) with (a_params a). rewrite HP. cbn [p_multi ex_params negb p_d p_async]. rewrite orb_false_r.
    destruct (N.eqb_spec (a_id a) 0) as [Z|Z].
    - destruct (blk_id d) as (J & EJ & WJ & _). rewrite EJ. cbn [bind].
      assert (I1 : AInv a1).
      { pose proof (wf_n0 _ I Hst) as [T00 X0]. pose proof (pa_new_arr _ _ _ _ EX) as HX.
        destruct I. constructor; cbn; auto; try congruence; try discriminate.
        - intros _. split; [exact Nz|]. rewrite Dr, Dd. exact HX.
        - intros T1 [= <-]. split; [discriminate|]. rewrite Dd. exact TT'.
        - intros _. apply iv_nd0. congruence. }
      destruct (initGlobal_total a1 J YL T' I1) as (a2 & E2 & P2); auto.
      + discriminate.
      + unfold robust. change (a_params a1) with (a_params a). rewrite HP. reflexivity.
      + change (a_params a1) with (a_params a). rewrite Dd. exact WJ.
      + rewrite E2. cbn [bind]. destruct (initGlobal_form _ _ _ E2) as (F1 & F2 & _ & _ & F5 & F6 & _ & _ & _ & _ & _ & _ & _ & _ & _ & F16 & _ & _ & _ & F20 & F21).
        rewrite F2. change (a_params a1) with (a_params a). rewrite HP. cbn [p_async ex_params]. exists a2. split; [reflexivity|].
        rewrite P2, F5, F6, F16, F20, F1. repeat split; auto; try congruence; try exact Hid; try (rewrite F2; exact HP); try (rewrite F21; discriminate).
    - cbn [bind]. change (a_params a1) with (a_params a). rewrite HP. cbn [p_async ex_params]. exists a1. repeat split; auto; discriminate. }
  destruct E as (a' & E & F1 & F2 & F3 & F4 & F5 & F6 & F7 & F8). exists a'. split; [exact E|]. split; [|exact F4].
  constructor; auto; try congruence.
  - exact (initialize_inv _ _ _ _ _ I E).
Qed.

Lemma new_total k : exists a, newAgent x k P = Ok a.
Proof.
  assert (Hr : (d <= r)%nat) by (pose proof HDs; unfold dataset_ok in *; tauto).
  unfold newAgent. cbn [p_r p_d ex_params]. destruct (pa_new_spec (S := R) r d 1 Hr) as (X & -> & _). cbn [bind].
  unfold newPoseGraph. rewrite (proj2 (Nat.leb_le d r) Hr). cbn [check bind]. destruct (k =? 0)%N; [|cbn [bind]; eauto].
  unfold ag_setLiftingMatrix. cbn [a_params p_r p_d ex_params]. destruct HFY as [-> ->]. rewrite !Nat.eqb_refl. cbn [check bind]. eauto.
Qed.
Lemma new_lift k a : newAgent x k P = Ok a -> k = 0%N -> a_YLift a <> None.
Proof.
  intros E ->. unfold newAgent in E. apply bind_Ok in E. destruct E as (X & _ & E). apply bind_Ok in E. destruct E as (g & _ & E). cbn [N.eqb] in E.
  unfold ag_setLiftingMatrix in E. apply bind_Ok in E. destruct E as (a1 & E1 & E). apply check_Ok in E1. destruct E1 as [_ E1]. apply check_Ok in E1. destruct E1 as [_ E1].
  injection E1 as <-. injection E as <-. discriminate.
Qed.

Notation st := (mkSplit (table n m (od n m) ds) (table n m (pr n m) ds) (table n m (one_end n m) ds)).
Definition readies (ags : list (Agent R)) : Prop := forall k a, nth_error ags k = Some a -> Ready (N.of_nat k) a.

Lemma robot_total k ags : (k < m)%N -> length ags = N.to_nat k -> readies ags -> exists ags', ex_robot x ls P st ags k = Ok ags' /\ length ags' = N.to_nat (k + 1) /\ readies ags'.
Proof.
  intros Hk Ln RD. unfold ex_robot. destruct (new_total k) as (a0 & E0). rewrite E0. cbn [bind]. pose proof (new_inv _ _ _ _ E0) as I0. pose proof (new_lift k a0 E0) as NL.
  destruct (new_form _ _ _ _ E0) as (X0 & g0 & YL0 & _ & _ & F0 & _).
  assert (L : exists a1 YL, (if (0 <? k)%N then do b <- at_ ags 0; ag_setLiftingMatrix a0 (match a_YLift b with Some M => M | None => mzero 0 0 end) else Ok a0) = Ok a1 /\
    a1 = sa_YLift a0 (Some YL) /\ mrows YL = r /\ mcols YL = d).
  { destruct (N.ltb_spec 0 k) as [Hp|Hz].
    - unfold at_. destruct (nth_error ags (N.to_nat 0)) as [b|] eqn:Eb; [|apply nth_error_None in Eb; lia]. cbn [bind]. pose proof (RD _ _ Eb) as B. destruct B.
      destruct (a_YLift b) as [YL|] eqn:EY; [|congruence]. destruct (iv_Y _ rd_inv0 _ EY) as [Y1 Y2]. rewrite rd_P0 in Y1, Y2. cbn in Y1, Y2.
      exists (sa_YLift a0 (Some YL)), YL. unfold ag_setLiftingMatrix. replace (a_params a0) with P by (rewrite F0; reflexivity). cbn [p_r p_d ex_params]. rewrite Y1, Y2, !Nat.eqb_refl. auto.
    - assert (k = 0%N) by lia. destruct (a_YLift a0) as [YL|] eqn:EY; [|exfalso; apply NL; auto]. exists a0, YL. split; [reflexivity|].
      destruct (iv_Y _ I0 _ EY) as [Y1 Y2]. replace (a_params a0) with P in Y1, Y2 by (rewrite F0; reflexivity). split; [|auto]. rewrite F0 in *. cbn in EY. rewrite EY. reflexivity. }
  destruct L as (a1 & YL & -> & Ha1 & Y1 & Y2). cbn [bind sp_odom sp_priv sp_shared].
  assert (Hs : sizes_ok n m) by apply HDs. rewrite !table_nth by auto.
  assert (I1 : AInv a1).
  { rewrite Ha1. assert (S1 : ag_setLiftingMatrix a0 YL = Ok (sa_YLift a0 (Some YL))).
    { unfold ag_setLiftingMatrix. replace (a_params a0) with P by (rewrite F0; reflexivity). cbn [p_r p_d ex_params]. rewrite Y1, Y2, !Nat.eqb_refl. reflexivity. }
    apply (step_inv x a0 (ASetLift YL)); auto. exact Logic.I. }
  assert (FF : a_thread a1 = false /\ a_state a1 = WAIT_FOR_DATA /\ a_id a1 = k /\ a_params a1 = P /\ a_inst a1 = 0%N /\ a_iter a1 = 0%N /\ a_YLift a1 = Some YL).
  { rewrite Ha1, F0. cbn. auto 10. }
  destruct FF as (FT & FS & FI & FP & Fi & Ft & FY).
  destruct (robot_graph d r n m ds HDs k Hk) as (g & g' & Eg & Eg' & HS).
  assert (EM : ag_setMeasurements a1 (map (relabel n m) (filter (od n m k) ds)) (map (relabel n m) (filter (pr n m k) ds)) (map (relabel n m) (filter (one_end n m k) ds)) = Ok (sa_pg a1 g')).
  { unfold ag_setMeasurements. rewrite FT, FS, FI, FP. cbn [negb state_eqb check p_r p_d ex_params]. rewrite Eg. cbn [bind]. fold (robot_input n m k ds). rewrite Eg'. cbn [bind].
    pose proof (odo_len d r n m ds HDs k Hk) as OL. destruct (size_two d r n m ds HDs k Hk) as [S2 _].
    destruct (map (relabel n m) (filter (od n m k) ds)) as [|e l] eqn:El; [cbn in OL; lia|reflexivity]. }
  rewrite EM. cbn [bind].
  assert (I2 : AInv (sa_pg a1 g')).
  { eapply setMeas_inv; [exact I1| |exact EM]. fold (robot_input n m k ds). apply Forall_forall. intros e He.
    apply (Permutation_in _ (input_perm n m Hs k ds (ds_edges d r n m ds HDs))) in He. apply filter_In in He. destruct He as [He _].
    apply in_map_iff in He. destruct He as (e0 & <- & I). pose proof (ds_edges d r n m ds HDs) as DE. rewrite Forall_forall in DE. apply (rl_kinds n m Hs k e0 (DE e0 I)). }
  destruct (init_total k (sa_pg a1 g') Hk I2 FI FP FS Fi Ft) as (a' & -> & Ra & _); [cbn; rewrite FY; discriminate|exact FT|exact HS|]. cbn [bind].
  exists (ags ++ [a']). split; [reflexivity|]. split; [rewrite app_length, Ln; cbn; lia|].
  intros j b Hj. destruct (Nat.lt_ge_cases j (length ags)) as [Lt|Ge].
  - rewrite nth_error_app1 in Hj by auto. auto.
  - rewrite nth_error_app2 in Hj by auto. destruct (j - length ags)%nat as [|q] eqn:Q; [|destruct q; discriminate]. injection Hj as <-.
    replace (N.of_nat j) with k by lia. exact Ra.
Qed.

Lemma team_total : exists ags, ex_team x ls P m st = Ok ags /\ length ags = N.to_nat m /\ readies ags.
Proof.
  unfold ex_team. assert (G : forall j, (j <= m)%N -> exists ags, foldM (ex_robot x ls P st) [] (range 0 j) = Ok ags /\ length ags = N.to_nat j /\ readies ags).
  { intros j. induction j as [|j IH] using N.peano_ind; intros Hj.
    - exists []. split; [reflexivity|]. split; [reflexivity|]. intros [|k] a; discriminate.
    - destruct (IH ltac:(lia)) as (ags & E & Ln & RD). rewrite <- N.add_1_r, range_S, foldM_app, E. cbn [bind foldM].
      destruct (robot_total j ags ltac:(lia) Ln RD) as (ags' & -> & Ln' & RD'). cbn [bind]. eauto. }
  apply (G m). lia.
Qed.
End R.
