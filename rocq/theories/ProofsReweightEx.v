(** Three robots in a row with a robust cost (C66). *)
From Coq Require Import List NArith ZArith Bool Arith Lia Lra Reals Permutation.
From Verif Require Import Base SMap Num RSum ModelTypes ModelPoseGraph ModelProblem ModelRobust ModelPoses ModelSolver ModelAgent ModelExample ModelTeam
  SpecPoseGraph SpecPGHist SpecCost SpecRobust SpecAgent SpecRun SpecTeam SpecDescent SpecReweight ProofsPoseGraph ProofsPGHist ProofsPGData ProofsCost ProofsCost2 ProofsCost4
  ProofsAgent ProofsAgent2 ProofsAgent3 ProofsAgent4 ProofsAgent5 ProofsAgent6 ProofsFramesEx ProofsRun ProofsRun2 ProofsRun3 ProofsTeam ProofsTeam2 ProofsTeam3 ProofsTeamEx ProofsDescent ProofsDescent2 ProofsDescentEx ProofsReweight.
Import ListNotations.
Local Open Scope res_scope.
Local Open Scope R_scope.

(** The cost r^2/(1+r^2)/2; [n] restarts from the initial guess. *)
Definition e_gm : RobustParams R := mkRobustParams GM 20 1 2 1 3 10.
Definition e_c : RobustCost R := mkRobustCost e_gm 0 1.
Definition eP (n : Z) (_ : N) : AgentParams R := mkAP 2 3 3 false InitOdometry false false 3 e_gm 1 n 2 0 1 10 0 false.
Definition all_now : list (top R) := reweights [0; 1; 2]%N.
Definition e_opt : Optimizer R := slider (-2).
Definition e_step : list (top R) := [TCall 2 (AIterate e_opt true)].

Definition erun n os := do t0 <- tm_new rx (eP n) 3; tm_run rx t0 os.
Lemma erun_reach n os (F : Team R -> Prop) : match erun n os with Ok t => F t | _ => False end -> Forall (top_ok (eP n)) os -> exists t, treach rx (eP n) 3 os t /\ F t.
Proof. unfold erun, treach. intros T Ho. destruct (do t0 <- tm_new rx (eP n) 3; tm_run rx t0 os) as [t| |]; try contradiction. eauto. Qed.
Lemma e_setup_ok n : Forall (top_ok (eP n)) (d_setup ++ d_pass).
Proof.
  unfold d_setup, d_load, d_pass, pass. cbn [d_links map app]. repeat apply Forall_cons; try apply Forall_nil; try (repeat split; reflexivity); try exact Logic.I; try discriminate;
  (split; [intros T' [= <-]; repeat split|]; split; intros; discriminate).
Qed.
Definition e_stage (a : Agent R) : Prop := a_rc a = e_c /\ a_trc a = 0%Z.
Definition eready (t : Team R) : Prop := dready t /\ (rhas t 0 e_stage /\ rhas t 1 e_stage /\ rhas t 2 e_stage) /\
  match tm_run rx t all_now with Ok _ => True | _ => False end.
Lemma eteam : exists t, treach rx (eP 0) 3 (d_setup ++ d_pass) t /\ eready t.
Proof. apply erun_reach; [|apply e_setup_ok]. vm_compute. repeat (split || constructor). Qed.

Lemma e_comrade n k a : (k = 0 \/ k = 1 \/ k = 2)%N -> dfacts k a -> comrade 3 2 d_data (fun _ => []) k (eP n k) a.
Proof. intros Hk F. destruct (d_member k a Hk F). constructor; auto. Qed.
Lemma e_staged n t : dready t -> rhas t 0 e_stage /\ rhas t 1 e_stage /\ rhas t 2 e_stage -> (n <= 0)%Z -> staged 3 2 d_data (fun _ => []) (eP n) e_c t.
Proof.
  intros D (S0 & S1 & S2) Hn k a K. destruct (dready_robot t k a D K) as (Hk & F & _). split; [apply e_comrade; auto|].
  assert (Q : e_stage a) by (unfold rhas in *; unfold robot in K; destruct Hk as [-> | [-> | ->]]; rewrite K in *; assumption). destruct Q as [Q1 Q2]. split; [exact Q1|]. rewrite Q2. exact Hn.
Qed.
Lemma e_pos : pos_params (rc_params e_c) (rc_mu e_c).
Proof. unfold pos_params. cbn. lra. Qed.
Lemma e_precisions e : In e d_data -> 0 <= mkappa e /\ 0 <= mtau e.
Proof. unfold d_data. cbn. intros H. repeat (destruct H as [<-|H]; [cbn; lra|]). contradiction. Qed.
Lemma e_off t : off_zero 3 2 e_c d_data t.
Proof. intros H. discriminate. Qed.
(** Residuals of the links. *)
Lemma e_est t k : dready t -> (k = 0 \/ k = 1 \/ k = 2)%N -> est t k = d_line (d_at k).
Proof.
  intros (H0 & H1 & H2 & _) Hk. apply rhas_robot in H0, H1, H2. destruct H0 as (a0 & K0 & F0 & _), H1 as (a1 & K1 & F1 & _), H2 as (a2 & K2 & F2 & _).
  destruct F0 as (_ & _ & _ & _ & _ & _ & _ & _ & _ & _ & F0 & _), F1 as (_ & _ & _ & _ & _ & _ & _ & _ & _ & _ & F1 & _), F2 as (_ & _ & _ & _ & _ & _ & _ & _ & _ & _ & F2 & _).
  destruct Hk as [-> | [-> | ->]]; [rewrite (est_at _ _ _ K0), F0|rewrite (est_at _ _ _ K1), F1|rewrite (est_at _ _ _ K2), F2]; reflexivity.
Qed.
Definition gm (s : R) : R := s / (1 + s) / 2.
Lemma e_loss s : 0 <= s -> loss e_gm 1 (sqrt s) = gm s.
Proof. intros H. unfold loss, gm. cbn [costType e_gm]. rewrite sqrt_sqrt by auto. reflexivity. Qed.
Lemma e_cost t X s0 s1 : (forall k, (k = 0 \/ k = 1 \/ k = 2)%N -> est t k = X k) ->
  central_edge 3 2 X (d_odom 0) = 0 -> central_edge 3 2 X (d_odom 1) = 0 -> central_edge 3 2 X (d_odom 2) = 0 ->
  central_edge 3 2 X (d_link 0) = s0 -> central_edge 3 2 X (d_link 1) = s1 -> 0 <= s0 -> 0 <= s1 ->
  robust_team_cost 3 2 e_c d_data (fun _ => []) (range 0 3) t = gm s0 + gm s1.
Proof.
  intros HX O0 O1 O2 L0 L1 P0 P1. unfold robust_team_cost. change (range 0 3) with [0; 1; 2]%N. unfold d_data, nsumL. cbn [fold_left]. unfold robust_edge, residual_at. cbn [adaptive d_odom d_link mr1 mr2 mp1 mp2 mfixed rc_params rc_mu e_c N.eqb N.add andb negb Pos.eqb Pos.add Pos.succ].
  assert (CE : forall e, In e d_data -> central_edge 3 2 (est t) e = central_edge 3 2 X e).
  { intros e He. unfold d_data in He. cbn in He. unfold central_edge. repeat (destruct He as [<-|He]; [cbn [mr1 mr2 d_odom d_link N.add Pos.add Pos.succ]; rewrite !HX by auto; reflexivity|]). contradiction. }
  change (set_mweight 1 (d_link 0)) with (d_link 0). change (set_mweight 1 (d_link 1)) with (d_link 1).
  rewrite !CE by (cbn; auto 10). rewrite O0, O1, O2, L0, L1, !e_loss by assumption. unfold n0, nadd, NumR. lra.
Qed.
Ltac e_calc := unfold central_edge, edge_cost; cbn; unfold sq; change (Pos.to_nat 1) with 1%nat; cbn; lra.
Lemma e_start t : dready t -> robust_team_cost 3 2 e_c d_data (fun _ => []) (range 0 3) t = 8 / 17 + 2 / 5.
Proof.
  intros D. rewrite (e_cost t (fun k => d_line (d_at k)) 16 4); [unfold gm; lra|intros k Hk; apply e_est; auto|e_calc|e_calc|e_calc|e_calc|e_calc|lra|lra].
Qed.

(** All update their weights, then robot 2 moves: its link is met. *)
Definition e_X (k : N) : Mx R := if (k =? 2)%N then slide (-2) (d_line 8) else d_line (d_at k).
Lemma e_lowers a g w : 0 <= w -> AInv a -> a_id a = 2%N -> a_params a = eP 0 2 -> base (a_pg a) -> pg_odom (a_pg a) = [d_odom 2] -> pg_priv (a_pg a) = [] -> pg_shared (a_pg a) = [set_mweight w (d_link 1)] ->
  pg_priors (a_pg a) = [] -> (pg_n (a_pg a) = 2)%N -> isNeighborActive (a_pg a) 1 = Ok true -> dcached 2 a -> like (a_pg a) g -> pg_nposes g = a_ndict a ->
  lowers g (d_line 8) (slide (-2) (d_line 8)) = true.
Proof.
  intros Hw I Ia Pa Bs F3 F4 F5 F6 F8 F12 C L EN. destruct (like_fields _ _ L) as (L1 & L2 & L3 & L4 & _ & L6 & L7 & L8 & _ & L10 & _).
  pose proof (iv_r _ I) as Ir. pose proof (iv_d _ I) as Idd. rewrite Pa in Ir, Idd. change (p_r (eP 0 2)) with 3%nat in Ir. change (p_d (eP 0 2)) with 2%nat in Idd. pose proof L as (W & _).
  rewrite (iv_id _ I), Ia in L1. unfold dcached in C. rewrite Forall_forall in C. specialize (C (d_link 1) (or_introl eq_refl)).
  set (e := set_mweight w (d_link 1)) in *. assert (Eo : other_pose 2 e = other_pose 2 (d_link 1)) by reflexivity.
  destruct (mfind pose_ltb (other_pose 2 (d_link 1)) (a_ndict a)) as [Z|] eqn:EZ; [|contradiction]. destruct C as (C1 & C2 & C3).
  assert (RP : remote_pose g e = Some Z).
  { rewrite rem_find; auto. - rewrite L1, EN, Eo. exact EZ. - rewrite L1, (like_active _ _ _ L). exact F12. }
  pose proof (ent_eq _ _ C3) as HZ. clear C3.
  assert (NK : needed_known g). { intros e' He _. rewrite L4, F5 in He. destruct He as [<-|[]]. rewrite L1, EN, Eo, EZ. eauto. }
  assert (UO : used_ok g).
  { apply nposes_used; auto. intros p Z' Hin. rewrite EN in Hin. destruct (iv_nd _ I) as [Sd Q]. destruct (Q p Z') as (_ & Q1 & Q2); [apply (mfind_In _ pose_total); auto|].
    rewrite Pa in Q1, Q2. cbn in Q1, Q2. split; [congruence|]. rewrite Q2. lia. }
  assert (Sz : forall X, mrows X = 3%nat -> mcols X = 6%nat -> exists g' v, qp_f g X = Ok (g', v) /\ v = local_cost g X - local_cost g (fun _ _ => 0)).
  { intros X X1 X2. destruct (like_f_defined (a_pg a) g X L NK) as (g' & v & E); [apply Bs|apply Bs|congruence|rewrite X2, Idd, F8; reflexivity|].
    exists g', v. split; auto. apply (like_f_val _ _ _ _ _ L UO E). }
  destruct (Sz (d_line 8) eq_refl eq_refl) as (g1 & v & E1 & V1). destruct (Sz (slide (-2) (d_line 8)) eq_refl eq_refl) as (g2 & v' & E2 & V2).
  unfold lowers. rewrite E1, E2. unfold nleb, NumR. destruct (Rle_dec v' v) as [|N]; [reflexivity|]. exfalso. apply N. rewrite V1, V2.
  apply Rplus_le_compat_r. unfold local_cost, private_cost, shared_cost, priors_cost. rewrite L2, L3, L4, L10, F3, F4, F5, F6, L7, L8, Ir, Idd, L1.
  unfold nsumL. cbn [app fold_left]. rewrite RP. clear - Hw HZ. unfold edge_cost. cbn in HZ.
  cbn -[Num.mat]. rewrite ?HZ by lia. cbn. unfold sq. change (Pos.to_nat 1) with 1%nat. cbn. nra.
Qed.
Lemma e_weight s : 0 <= weight e_c s.
Proof. unfold weight. cbn. assert (0 < 1 + s * s) by nra. apply Rlt_le, Rdiv_lt_0_compat; nra. Qed.
Lemma e_round : exists os t0 t1 t, treach rx (eP 0) 3 os t0 /\ staged 3 2 d_data (fun _ => []) (eP 0) e_c t0 /\ (forall j, uptodate 3 2 t0 j) /\ tm_run rx t0 all_now = Ok t1 /\
  careful 3 2 rx t1 e_step /\ tm_run rx t1 e_step = Ok t /\
  robust_team_cost 3 2 e_c d_data (fun _ => []) (range 0 3) t0 = 8 / 17 + 2 / 5 /\ robust_team_cost 3 2 e_c d_data (fun _ => []) (range 0 3) t = 8 / 17.
Proof.
  destruct eteam as (t0 & R & D & S & E). destruct (tm_run rx t0 all_now) as [t1| |] eqn:E1; try contradiction. clear E.
  pose proof (e_staged 0 t0 D S (Z.le_refl _)) as ST. assert (UD : forall j, uptodate 3 2 t0 j) by (intros; apply d_uptodate; auto).
  destruct (reweights_run rx 3 (eP 0) [0; 1; 2]%N _ t0 t1 R) as (R1 & X1 & U); [repeat constructor; cbn; intuition discriminate| |exact E1|].
  { intros k a _ K. destruct (ST k a K) as (C & _ & Tr). split; [apply C|exact Tr]. }
  assert (B : forall k a1, robot t1 k a1 -> exists a0, robot t0 k a0 /\ ag_updateMeasurementWeights a0 = Ok a1 /\ (k = 0 \/ k = 1 \/ k = 2)%N /\ dfacts k a0 /\ dcached k a0).
  { intros k a1 K1. destruct (U k a1 K1) as (a0 & K0 & U1 & _). destruct (dready_robot t0 k a0 D K0) as (Hk & F & C). exists a0. split; auto. split; [apply U1; cbn; destruct Hk as [-> | [-> | ->]]; auto|auto]. }
  assert (Nd : forall k a0 a1, robot t0 k a0 -> ag_updateMeasurementWeights a0 = Ok a1 -> a_ndict a1 = a_ndict a0 /\ a_inner a1 = 0%Z).
  { intros k a0 a1 K0 Eu. destruct (ST k a0 K0) as (Cm & _ & Tr). destruct (ti_agent _ _ _ _ _ (tinv _ _ _ _ _ R) k a0 K0) as (l & Rl & _).
    destruct (c25_rest _ _ _ _ _ _ Rl (cm_init _ _ _ _ _ _ _ Cm) Eu) as (_ & _ & _ & _ & _ & _ & Q7 & _ & _ & _ & _ & _ & _ & _ & Q). destruct (Z.ltb_spec (a_trc a0) (p_nreset (eP 0 k))); [lia|]. destruct Q as (_ & Q & _). auto. }
  assert (UM : forall k a0 a1, robot t0 k a0 -> ag_updateMeasurementWeights a0 = Ok a1 -> member 3 2 (map (fit 3 2 e_c t0) d_data) (fun _ => []) k (eP 0 k) a1 /\ a_X a1 = a_X a0 /\
     pg_odom (a_pg a1) = map (fit 3 2 e_c t0) (pg_odom (a_pg a0)) /\ pg_priv (a_pg a1) = map (fit 3 2 e_c t0) (pg_priv (a_pg a0)) /\ pg_shared (a_pg a1) = map (fit 3 2 e_c t0) (pg_shared (a_pg a0))).
  { intros k a0 a1 K0 Eu. destruct (ST k a0 K0) as (Cm & Ec & Tr). destruct (update_member rx 3 2 3 (eP 0) _ t0 k a0 a1 d_data (fun _ => []) e_c R K0 Cm Ec Tr (UD k) Eu) as (M1 & M2 & _ & _ & M3). auto. }
  assert (UD1 : forall j, uptodate 3 2 t1 j).
  { intros j a1 e K1 He. destruct (B j a1 K1) as (a0 & K0 & Eu & _). destruct (UM j a0 a1 K0 Eu) as (_ & _ & _ & _ & Sh). rewrite Sh in He. apply in_map_iff in He. destruct He as (e0 & <- & He).
    destruct (UD j a0 e0 K0 He) as (b & Kb & v & Fv & Q1 & Q2 & Q3). assert (Eo : other_pose j (fit 3 2 e_c t0 e0) = other_pose j e0) by (destruct (fit_ids 3 2 e_c t0 e0) as (I1 & I2 & I3 & I4); unfold other_pose; rewrite I1, I2, I3, I4; reflexivity).
    destruct (robot_ex rx 3 (eP 0) _ t1 (robot_id (other_pose j e0)) R1) as (b1 & Kb1). { destruct (dready_robot t0 _ b D Kb) as (Hk & _). lia. }
    exists b1. rewrite Eo. split; auto. exists v. destruct (Nd j a0 a1 K0 Eu) as [-> _]. rewrite Eo. split; [exact Fv|]. split; auto. split; auto.
    destruct (B _ b1 Kb1) as (b0 & Kb0 & Eub & _). destruct (UM _ b0 b1 Kb0 Eub) as (_ & -> & _). unfold robot in Kb, Kb0. rewrite Kb in Kb0. injection Kb0 as <-. exact Q3. }
  destruct (robot_ex rx 3 (eP 0) _ t1 2 R1 ltac:(lia)) as (a1 & K1). destruct (B 2%N a1 K1) as (a0 & K0 & Eu & Hk & F & C). destruct (UM 2%N a0 a1 K0 Eu) as (MB & XE & F3 & F4 & F5). destruct (Nd 2%N a0 a1 K0 Eu) as [NE IE].
  destruct F as (G1 & G2 & G3 & G4 & G5 & G6 & G7 & G8 & G9 & G10 & G11 & G12). rewrite G3 in F3. rewrite G4 in F4. rewrite G5 in F5. cbn [map d_links] in F3, F4, F5.
  assert (FO : fit 3 2 e_c t0 (d_odom 2) = d_odom 2) by reflexivity. rewrite FO in F3. unfold fit in F5. change (adaptive (d_link 1)) with true in F5. cbv iota in F5.
  destruct (robot_id_of _ _ _ _ _ _ _ (tinv _ _ _ _ _ R1) K1) as (Ia & Pa & I).
  assert (Bs : base (a_pg a1)) by (destruct MB; constructor; auto).
  assert (L : like (a_pg a1) (a_pg a1)). { split; [apply (iv_pg _ I)|]. split; [repeat split|]. destruct MB. apply coh_none; auto. }
  assert (C1 : dcached 2 a1) by (unfold dcached; rewrite NE; exact C).
  assert (Fu : full (a_pg a1) (a_ndict a1)).
  { intros e He. rewrite (iv_id _ I), Ia. rewrite F5 in He. destruct He as [<-|[]]. change (other_pose 2 (set_mweight (weight e_c (residual_at 3 2 t0 (d_link 1))) (d_link 1))) with (other_pose 2 (d_link 1)).
    unfold dcached in C1. rewrite Forall_forall in C1. specialize (C1 (d_link 1) (or_introl eq_refl)). destruct (mfind _ _ _) as [Z|]; [eauto|contradiction]. }
  assert (Ac : p_accel (a_params a1) = false) by (rewrite Pa; reflexivity). pose proof (mb_init _ _ _ _ _ _ _ MB) as Hs.
  destruct (slider_ok (-2)) as [O1 O2].
  destruct (iterate_robust_total rx e_opt a1 (a_pg a1) I Ac IE Hs Bs L O1 Fu) as (a2 & s & E2).
  destruct (iterate_plain rx e_opt a1 true a2 s (a_pg a1) E2 I Ac Hs Bs L (fun _ => O1) (fun _ => Fu)) as (_ & _ & _ & Q). destruct (Q eq_refl) as (g & Lg & EN & EX).
  assert (Es : tm_step rx t1 (TCall 2 (AIterate e_opt true)) = Ok (tm_put t1 2 a2)) by (cbn [tm_step]; rewrite (at_robot _ _ _ K1); cbn [bind ag_step]; rewrite E2; reflexivity).
  exists (d_setup ++ d_pass), t0, t1, (tm_put t1 2 a2). split; [exact R|]. split; [exact ST|]. split; [exact UD|]. split; [exact E1|].
  split. { cbn [careful e_step careful1]. split; [split; [exact O1|split; [exact O2|apply UD1]]|auto]. }
  split. { unfold tm_run, e_step. cbn [foldM]. rewrite Es. reflexivity. }
  split; [apply e_start; auto|].
  rewrite (e_cost _ e_X 16 0); [unfold gm; lra| |e_calc|e_calc|e_calc|e_calc|e_calc|lra|lra].
  intros k Hk'. unfold e_X. destruct (N.eqb_spec k 2) as [->|N2].
  - rewrite (est_at _ _ _ (put_same t1 2 a2 a1 K1)), EX. unfold e_opt. rewrite slider_val. rewrite XE, G11. cbn [pa_X]. change (d_at 2) with 8.
    rewrite (e_lowers a1 g (weight e_c (residual_at 3 2 t0 (d_link 1)))); auto; [apply e_weight|apply MB| |].
    { destruct (iv_X _ I ltac:(congruence)) as [_ AX]. rewrite XE, G11 in AX. unfold num_poses, arr in AX. cbn in AX. lia. }
    pose proof (mb_active _ _ _ _ _ _ _ MB) as A. rewrite F5 in A. exact (A _ (or_introl eq_refl)).
  - destruct (robot_ex rx 3 (eP 0) _ t1 k R1) as (w & Kw); [lia|]. rewrite (est_at _ k w (proj2 (call_other rx t1 2 _ _ Es k w N2) Kw)), <- (est_at t1 k w Kw), X1. apply e_est; auto.
Qed.

(** Robots that stand where the links want them, but were initialised elsewhere. *)
Definition f_at (k : N) : R := match k with 0%N => 0 | 1%N => 1 | _ => 2 end.
Definition f_setup : list (top R) := d_setup ++ map (fun k => TCall k (ASetX (d_line (f_at k)))) [0; 1; 2]%N ++ d_pass.
Definition fent (Z : nat -> nat -> R) : list (list R) := map (fun i => map (Z i) [0; 1; 2; 3; 4; 5]%nat) [0; 1; 2]%nat.
Definition f_init : Mx R := rows 3 6 [[0; 1; 0; 0; 1; 0]; [0; 0; 0; 0; 0; 0]; [1; 0; 0; 1; 0; 1]].
Definition fcached (k : N) (a : Agent R) : Prop := Forall (fun e => match mfind pose_ltb (other_pose k e) (a_ndict a) with
  | Some Z => mrows Z = 3%nat /\ mcols Z = 3%nat /\ ent Z = ent (pose_blk 2 (d_line (f_at (robot_id (other_pose k e)))) (N.to_nat (frame_id (other_pose k e))))
  | None => False end) (d_links k).
Definition ffacts (k : N) (a : Agent R) : Prop := dfacts k (sa_X a (mkPA 3 2 2 (d_line (d_at k)))) /\ a_X a = mkPA 3 2 2 (d_line (f_at k)) /\ fcached k a /\ a_rc a = e_c /\ a_trc a = 0%Z /\ match a_XInit a with Some T => fent (pa_X T) = fent f_init | None => False end.
Definition fready (t : Team R) : Prop := (rhas t 0 (ffacts 0) /\ rhas t 1 (ffacts 1) /\ rhas t 2 (ffacts 2) /\ length (tm_agents t) = 3%nat) /\
  match tm_run rx t all_now with Ok _ => True | _ => False end.
Lemma f_setup_ok n : Forall (top_ok (eP n)) f_setup.
Proof.
  pose proof (e_setup_ok n) as H. apply Forall_app in H. destruct H as [H1 H2]. unfold f_setup. apply Forall_app. split; [exact H1|]. apply Forall_app. split; [|exact H2].
  cbn [map]. repeat apply Forall_cons; try apply Forall_nil; try (repeat split; reflexivity); try exact Logic.I.
Qed.
Lemma fteam : exists t, treach rx (eP 1) 3 f_setup t /\ fready t.
Proof. apply erun_reach; [|apply f_setup_ok]. vm_compute. repeat (split || constructor); repeat match goal with |- _ :: _ = _ :: _ => f_equal end; ring. Qed.
Lemma fent_eq Z Z' : fent Z = fent Z' -> forall i j, (i < 3)%nat -> (j < 6)%nat -> Z i j = Z' i j.
Proof.
  unfold fent. cbn. intros [= A1 A2 A3 A4 A5 A6 B1 B2 B3 B4 B5 B6 C1 C2 C3 C4 C5 C6] i j Hi Hj.
  destruct i as [|[|[|]]]; try lia; destruct j as [|[|[|[|[|[|]]]]]]; try lia; assumption.
Qed.
Lemma fready_robot t k a : fready t -> robot t k a -> (k = 0 \/ k = 1 \/ k = 2)%N /\ ffacts k a.
Proof.
  intros ((H0 & H1 & H2 & HL) & _) K. assert (N.to_nat k < 3)%nat by (rewrite <- HL; apply nth_error_Some; unfold robot in K; congruence).
  assert (Hk : (k = 0 \/ k = 1 \/ k = 2)%N) by lia. split; auto. unfold rhas in *. unfold robot in K.
  destruct Hk as [-> | [-> | ->]]; rewrite K in *; auto.
Qed.
Lemma f_robot t k : fready t -> (k = 0 \/ k = 1 \/ k = 2)%N -> exists a, robot t k a /\ ffacts k a.
Proof.
  intros ((H0 & H1 & H2 & _) & _) Hk. apply rhas_robot in H0, H1, H2. destruct Hk as [-> | [-> | ->]]; [destruct H0 as (a & ? & ?)|destruct H1 as (a & ? & ?)|destruct H2 as (a & ? & ?)]; eauto.
Qed.
Lemma f_uptodate t k : fready t -> uptodate 3 2 t k.
Proof.
  intros D a e K He. destruct (fready_robot t k a D K) as (Hk & F & _ & C & _). assert (F5 : pg_shared (a_pg a) = d_links k) by apply F. rewrite F5 in He.
  pose proof (link_other k e Hk He) as Ho. unfold fcached in C. rewrite Forall_forall in C. specialize (C e He).
  destruct (mfind pose_ltb (other_pose k e) (a_ndict a)) as [Z|] eqn:EZ; [|contradiction]. destruct C as (C1 & C2 & C3).
  destruct (f_robot t _ D Ho) as (b & Kb & _ & Fb & _). exists b. split; auto. exists Z. split; auto. split; auto. split; auto. intros i j Hi Hj. rewrite (ent_eq _ _ C3) by lia. rewrite Fb. reflexivity.
Qed.
Lemma f_start t : fready t -> robust_team_cost 3 2 e_c d_data (fun _ => []) (range 0 3) t = 0.
Proof.
  intros D. rewrite (e_cost t (fun k => d_line (f_at k)) 0 0); [unfold gm; lra| |e_calc|e_calc|e_calc|e_calc|e_calc|lra|lra].
  intros k Hk. destruct (f_robot t k D Hk) as (a & K & _ & F & _). rewrite (est_at _ _ _ K), F. reflexivity.
Qed.
Lemma f_end t : (forall k i j, (k = 0 \/ k = 1 \/ k = 2)%N -> (i < 3)%nat -> (j < 6)%nat -> est t k i j = f_init i j) ->
  robust_team_cost 3 2 e_c d_data (fun _ => []) (range 0 3) t = 1 / 2.
Proof.
  intros H. assert (H0 : forall i j, (i < 3)%nat -> (j < 6)%nat -> est t 0 i j = f_init i j) by auto. assert (H1 : forall i j, (i < 3)%nat -> (j < 6)%nat -> est t 1 i j = f_init i j) by auto. assert (H2 : forall i j, (i < 3)%nat -> (j < 6)%nat -> est t 2 i j = f_init i j) by auto. clear H.
  assert (E : forall e, In e d_data -> central_edge 3 2 (est t) e = edge_cost 3 2 e (fun i c => f_init i (3 * N.to_nat (mp1 e) + c)%nat) (fun i c => f_init i (3 * N.to_nat (mp2 e) + c)%nat)).
  { intros e He. unfold central_edge. apply edge_cost_ext; intros u c Hu Hc; unfold pose_blk; cbn in He; (repeat (destruct He as [<-|He]; [cbn [mr1 mr2 mp1 mp2 d_odom d_link N.add Pos.add Pos.succ]; change (N.to_nat 0) with 0%nat; change (N.to_nat 1) with 1%nat; first [rewrite H0 by lia|rewrite H1 by lia|rewrite H2 by lia]; f_equal; lia|]); contradiction). }
  rewrite (e_cost t (est t) 1 1); [unfold gm; lra|auto| | | | | |lra|lra]; (rewrite E by (cbn; auto 10); unfold edge_cost; cbn; unfold sq; change (Pos.to_nat 1) with 1%nat; cbn; lra).
Qed.

Lemma f_resets : exists os t0 t1, treach rx (eP 1) 3 os t0 /\ (forall k a, robot t0 k a -> comrade 3 2 d_data (fun _ => []) k (eP 1 k) a /\ a_rc a = e_c /\ a_trc a = 0%Z) /\ (forall j, uptodate 3 2 t0 j) /\
  tm_run rx t0 all_now = Ok t1 /\
  robust_team_cost 3 2 e_c d_data (fun _ => []) (range 0 3) t0 = 0 /\ robust_team_cost 3 2 e_c d_data (fun _ => []) (range 0 3) t1 = 1 / 2.
Proof.
  destruct fteam as (t0 & R & D). pose proof D as (_ & E). destruct (tm_run rx t0 all_now) as [t1| |] eqn:E1; try contradiction. clear E.
  exists f_setup, t0, t1. split; [exact R|]. split.
  { intros k a K. destruct (fready_robot t0 k a D K) as (Hk & F & _ & _ & F1 & F2 & _). split; [|auto]. destruct (d_member k _ Hk F). constructor; auto. }
  split; [intros; apply f_uptodate; auto|]. split; [exact E1|]. split; [apply f_start; auto|]. apply f_end.
  assert (U : forall k, (k = 0 \/ k = 1 \/ k = 2)%N -> exists a0 a1, robot t0 k a0 /\ robot t1 k a1 /\ ag_updateMeasurementWeights a0 = Ok a1).
  { unfold tm_run, all_now, reweights in E1. cbn [map foldM tm_step ag_step] in E1.
    destruct (f_robot t0 0 D) as (a0 & K0 & _); [auto|]. destruct (f_robot t0 1 D) as (a1 & K1 & _); [auto|]. destruct (f_robot t0 2 D) as (a2 & K2 & _); [auto|].
    rewrite (at_robot _ _ _ K0) in E1. cbn [bind] in E1. destruct (ag_updateMeasurementWeights a0) as [b0| |] eqn:U0; cbn [bind] in E1; try discriminate.
    rewrite (at_robot _ 1 a1) in E1 by (apply put_other; [discriminate|exact K1]). cbn [bind] in E1. destruct (ag_updateMeasurementWeights a1) as [b1| |] eqn:U1; cbn [bind] in E1; try discriminate.
    rewrite (at_robot _ 2 a2) in E1 by (apply put_other; [discriminate|apply put_other; [discriminate|exact K2]]). cbn [bind] in E1. destruct (ag_updateMeasurementWeights a2) as [b2| |] eqn:U2; cbn [bind] in E1; try discriminate.
    injection E1 as <-. intros k [-> | [-> | ->]].
    - exists a0, b0. split; auto. split; auto. apply put_other; [discriminate|]. apply put_other; [discriminate|]. apply (put_same _ _ _ a0); auto.
    - exists a1, b1. split; auto. split; auto. apply put_other; [discriminate|]. apply (put_same _ _ _ a1), put_other; [discriminate|exact K1].
    - exists a2, b2. split; auto. split; auto. apply (put_same _ _ _ a2), put_other; [discriminate|]. apply put_other; [discriminate|exact K2]. }
  intros k i j Hk Hi Hj. destruct (U k Hk) as (a0 & a1 & K0 & K1 & Eu). destruct (fready_robot t0 k a0 D K0) as (_ & F & _ & _ & _ & F2 & FX). destruct (ti_agent _ _ _ _ _ (tinv _ _ _ _ _ R) k a0 K0) as (l & Rl & _).
  destruct (c25_rest _ _ _ _ _ _ Rl ltac:(apply F) Eu) as (_ & _ & _ & _ & _ & _ & _ & _ & _ & _ & _ & _ & _ & _ & Q). rewrite F2 in Q. cbn in Q. destruct Q as (_ & _ & _ & QX). rewrite QX in FX.
  rewrite (est_at _ _ _ K1). apply (fent_eq _ _ FX); auto.
Qed.
(** The round as a list of rounds. *)
Lemma e_rounds : exists os t0 t, treach rx (eP 0) 3 os t0 /\ staged 3 2 d_data (fun _ => []) (eP 0) e_c t0 /\ (forall n, rc_mu (rc_updates n e_c) = rc_mu e_c) /\
  reweighing 3 2 rx (eP 0) 3 e_c d_data t0 [([0; 1; 2]%N, e_step)] /\ tm_run rx t0 (rounds_of [([0; 1; 2]%N, e_step)]) = Ok t /\
  robust_team_cost 3 2 e_c d_data (fun _ => []) (range 0 3) t0 = 8 / 17 + 2 / 5 /\ robust_team_cost 3 2 e_c d_data (fun _ => []) (range 0 3) t = 8 / 17.
Proof.
  destruct e_round as (os & t0 & t1 & t & R & ST & UD & E1 & Q & E & A & B). exists os, t0, t. split; [exact R|]. split; [exact ST|]. split; [|split; [|split; [|auto]]].
  - induction n as [|n IH]; [reflexivity|]. rewrite <- IH. assert (H : forall m, rc_updates m e_c = e_c). { clear. induction m as [|m IH]; [reflexivity|]. cbn [rc_updates]. rewrite ?IH. reflexivity || (unfold rc_updates in *; cbn; rewrite IH; reflexivity). } rewrite !H. reflexivity.
  - cbn [reweighing]. split; [reflexivity|]. split; [exact UD|]. split; [apply e_off|]. split; [repeat constructor|]. intros t1' E1'. assert (t1' = t1) by (change (reweights [0; 1; 2]%N) with all_now in E1'; congruence). subst t1'. auto.
  - unfold rounds_of. cbn [flat_map fst snd]. rewrite app_nil_r. unfold tm_run in *. rewrite foldM_app. change (reweights [0; 1; 2]%N) with all_now. rewrite E1. exact E.
Qed.
