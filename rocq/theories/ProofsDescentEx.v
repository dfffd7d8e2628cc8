(** Three robots in a row (C65). *)
From Coq Require Import List NArith ZArith Bool Arith Lia Lra Reals Permutation.
From Verif Require Import Base SMap Num RSum ModelTypes ModelPoseGraph ModelProblem ModelRobust ModelPoses ModelSolver ModelAgent ModelExample ModelTeam
  SpecPoseGraph SpecPGHist SpecCost SpecAgent SpecRun SpecTeam SpecDescent ProofsPoseGraph ProofsPGHist ProofsPGData ProofsCost ProofsCost2 ProofsCost4
  ProofsAgent ProofsAgent2 ProofsAgent3 ProofsAgent4 ProofsAgent5 ProofsFramesEx ProofsRun ProofsRun2 ProofsRun3 ProofsTeam ProofsTeam2 ProofsTeam3 ProofsTeamEx ProofsDescent ProofsDescent2.
Import ListNotations.
Local Open Scope res_scope.
Local Open Scope R_scope.

Definition dP (_ : N) : AgentParams R := mkAP 2 3 3 false InitOdometry false false 3 (mkRobustParams L2 20 1 2 1 3 10) 1 0 2 0 1 10 0 false.
Definition eye2 : Mx R := rows 2 2 [[1; 0]; [0; 1]].
Definition d_odom (k : N) : Meas R := mkMeas k k 0 1 eye2 (rows 2 1 [[1]; [0]]) 1 1 true 1.
Definition d_link (k : N) : Meas R := mkMeas k (k + 1) 1 0 eye2 (rows 2 1 [[0]; [0]]) 1 1 false 1.
Definition d_data : list (Meas R) := [d_odom 0; d_odom 1; d_odom 2; d_link 0; d_link 1].
(** Poses u and u + 1 on the x axis. *)
Definition d_line (u : R) : Mx R := rows 3 6 [[1; 0; u; 1; 0; u + 1]; [0; 1; 0; 0; 1; 0]; [0; 0; 0; 0; 0; 0]].
Definition d_at (k : N) : R := match k with 0%N => 0 | 1%N => 5 | _ => 8 end.
Definition d_T : PoseArr R := mkPA 2 2 2 (rows 2 6 [[1; 0; 0; 1; 0; 1]; [0; 1; 0; 0; 1; 0]]).
Definition d_links (k : N) : list (Meas R) := match k with 0%N => [d_link 0] | 1%N => [d_link 0; d_link 1] | _ => [d_link 1] end.
Definition d_load (k : N) : list (top R) :=
  TCall k (AAdd (d_odom k)) :: map (fun e => TCall k (AAdd e)) (d_links k) ++ [TCall k (ASetLift rY); TCall k (AInit rls (Some d_T)); TCall k (ASetX (d_line (d_at k)))].
Definition d_setup : list (top R) := d_load 0 ++ d_load 1 ++ d_load 2.

(** An optimiser that moves the robot along the x axis if this does not raise its cost. *)
Definition slide (s : R) (X : Mx R) : Mx R := mkMx (mrows X) (mcols X) (fun i j => if (i =? 0)%nat && (j mod 3 =? 2)%nat then X i j + s else X i j).
Definition lowers (g : PoseGraph R) (X X' : Mx R) : bool :=
  match qp_f g X, qp_f g X' with Ok (_, v), Ok (_, v') => nleb v' v | _, _ => false end.
Definition slider (s : R) : Optimizer R := fun g X => (None, mkMx (mrows X) (mcols X) (fun i j => if lowers g X (slide s X) then slide s X i j else X i j)).
Definition d_opt (k : N) : Optimizer R := slider (match k with 0%N => 7 | 1%N => -1 | _ => -2 end).

Lemma mx_eta (X : Mx R) : mkMx (mrows X) (mcols X) (fun i j => X i j) = X.
Proof. destruct X. reflexivity. Qed.
Lemma slider_val s g X : snd (slider s g X) = if lowers g X (slide s X) then slide s X else X.
Proof. unfold slider. cbn [snd]. destruct (lowers g X (slide s X)); [reflexivity|apply mx_eta]. Qed.
Lemma slider_ok s : opt_sized (slider s) /\ descending (slider s).
Proof.
  split.
  - intros g X g1 v _. auto.
  - intros g X g1 v g2 v' E1 E2. rewrite slider_val in E2. destruct (lowers g X (slide s X)) eqn:E.
    + unfold lowers in E. rewrite E1, E2 in E. unfold nleb, NumR in E. destruct (Rle_dec v' v); [auto|discriminate].
    + rewrite E1 in E2. injection E2 as _ <-. lra.
Qed.

Definition drun os := do t0 <- tm_new rx dP 3; tm_run rx t0 os.
Lemma drun_reach os (F : Team R -> Prop) : match drun os with Ok t => F t | _ => False end -> Forall (top_ok dP) os -> exists t, treach rx dP 3 os t /\ F t.
Proof. unfold drun, treach. intros T Ho. destruct (do t0 <- tm_new rx dP 3; tm_run rx t0 os) as [t| |]; try contradiction. eauto. Qed.
Lemma d_setup_ok : Forall (top_ok dP) d_setup.
Proof.
  unfold d_setup, d_load. cbn [d_links map app]. repeat apply Forall_cons; try apply Forall_nil; try (repeat split; reflexivity); try exact Logic.I;
  (split; [intros T' [= <-]; repeat split|]; split; intros; discriminate).
Qed.
Definition dfacts (k : N) (a : Agent R) : Prop :=
  a_state a = INITIALIZED /\ a_YLift a = Some rY /\ pg_odom (a_pg a) = [d_odom k] /\ pg_priv (a_pg a) = [] /\ pg_shared (a_pg a) = d_links k /\ pg_priors (a_pg a) = [] /\
  pg_useinact (a_pg a) = false /\ (pg_n (a_pg a) = 2)%N /\ pg_Q (a_pg a) = None /\ pg_G (a_pg a) = None /\ a_X a = mkPA 3 2 2 (d_line (d_at k)) /\
  Forall (fun e => isNeighborActive (a_pg a) (other_robot k e) = Ok true) (d_links k).
Definition dteam_at (t : Team R) : Prop := rhas t 0 (dfacts 0) /\ rhas t 1 (dfacts 1) /\ rhas t 2 (dfacts 2) /\ length (tm_agents t) = 3%nat /\ tm_status t = [] /\ tm_poses t = [].
Lemma dteam : exists t, treach rx dP 3 d_setup t /\ dteam_at t.
Proof. apply drun_reach; [|apply d_setup_ok]. vm_compute. repeat (split || constructor). Qed.

(** All exchange their poses. *)
Definition d_pass : list (top R) := pass 1 0 0 0 ++ pass 0 1 1 1 ++ pass 2 1 2 2 ++ pass 1 2 3 3.
Definition ent (Z : nat -> nat -> R) : list (list R) := map (fun i => map (Z i) [0; 1; 2]%nat) [0; 1; 2]%nat.
Definition dcached (k : N) (a : Agent R) : Prop := Forall (fun e => match mfind pose_ltb (other_pose k e) (a_ndict a) with
  | Some Z => mrows Z = 3%nat /\ mcols Z = 3%nat /\ ent Z = ent (pose_blk 2 (d_line (d_at (robot_id (other_pose k e)))) (N.to_nat (frame_id (other_pose k e))))
  | None => False end) (d_links k).
Definition dready (t : Team R) : Prop := rhas t 0 (fun a => dfacts 0 a /\ dcached 0 a) /\ rhas t 1 (fun a => dfacts 1 a /\ dcached 1 a) /\ rhas t 2 (fun a => dfacts 2 a /\ dcached 2 a) /\
  length (tm_agents t) = 3%nat.
Lemma dteam_ready : exists t, treach rx dP 3 (d_setup ++ d_pass) t /\ dready t.
Proof.
  apply drun_reach. 2:{ apply Forall_app. split; [apply d_setup_ok|]. unfold d_pass, pass. cbn [app]. repeat apply Forall_cons; try apply Forall_nil; try exact Logic.I; discriminate. }
  vm_compute. repeat (split || constructor).
Qed.

Lemma dready_robot t k a : dready t -> robot t k a -> (k = 0 \/ k = 1 \/ k = 2)%N /\ dfacts k a /\ dcached k a.
Proof.
  intros (H0 & H1 & H2 & HL) K. assert (N.to_nat k < 3)%nat by (rewrite <- HL; apply nth_error_Some; unfold robot in K; congruence).
  assert (Hk : (k = 0 \/ k = 1 \/ k = 2)%N) by lia. split; auto. unfold rhas in *. unfold robot in K.
  destruct Hk as [-> | [-> | ->]]; rewrite K in *; auto.
Qed.
Lemma d_member k a : (k = 0 \/ k = 1 \/ k = 2)%N -> dfacts k a -> member 3 2 d_data (fun _ => []) k (dP k) a.
Proof.
  intros Hk (F1 & F2 & F3 & F4 & F5 & F6 & F7 & F8 & F9 & F10 & F11 & F12). constructor; auto.
  - unfold knows. rewrite F3, F4, F5. destruct Hk as [-> | [-> | ->]]; cbn; reflexivity.
  - intros e. rewrite F3, F4. cbn. intros [<-|[]]. cbn. lia.
  - exists (d_odom k). rewrite F3, F4, F8. split; [left; reflexivity|]. right. reflexivity.
  - intros e He. rewrite F5 in He. rewrite Forall_forall in F12. auto.
Qed.
Lemma ent_eq Z Z' : ent Z = ent Z' -> forall i j, (i < 3)%nat -> (j < 3)%nat -> Z i j = Z' i j.
Proof.
  unfold ent. cbn. intros [= E1 E2 E3 E4 E5 E6 E7 E8 E9] i j Hi Hj.
  destruct i as [|[|[|]]]; try lia; destruct j as [|[|[|]]]; try lia; assumption.
Qed.
Lemma link_other k e : (k = 0 \/ k = 1 \/ k = 2)%N -> In e (d_links k) -> (robot_id (other_pose k e) = 0 \/ robot_id (other_pose k e) = 1 \/ robot_id (other_pose k e) = 2)%N.
Proof. intros [-> | [-> | ->]]; cbn; intros H; repeat (destruct H as [<-|H]; [cbn; auto|]); contradiction. Qed.
Lemma d_uptodate t k : dready t -> uptodate 3 2 t k.
Proof.
  intros D a e K He. destruct (dready_robot t k a D K) as (Hk & F & C). assert (F5 : pg_shared (a_pg a) = d_links k) by apply F. rewrite F5 in He.
  pose proof (link_other k e Hk He) as Ho. unfold dcached in C. rewrite Forall_forall in C. specialize (C e He).
  destruct (mfind pose_ltb (other_pose k e) (a_ndict a)) as [Z|] eqn:EZ; [|contradiction]. destruct C as (C1 & C2 & C3).
  assert (Kb : exists b, robot t (robot_id (other_pose k e)) b /\ dfacts (robot_id (other_pose k e)) b).
  { pose proof D as (H0 & H1 & H2 & _). destruct Ho as [Eq|[Eq|Eq]]; rewrite Eq; [apply rhas_robot in H0; destruct H0 as (b & ? & ? & ?)|apply rhas_robot in H1; destruct H1 as (b & ? & ? & ?)|apply rhas_robot in H2; destruct H2 as (b & ? & ? & ?)]; eauto. }
  destruct Kb as (b & Kb & Fb). exists b. split; auto. exists Z. split; auto. split; auto. split; auto. intros i j Hi Hj. rewrite (ent_eq _ _ C3) by lia.
  destruct Fb as (_ & _ & _ & _ & _ & _ & _ & _ & _ & _ & -> & _). reflexivity.
Qed.

Definition d_by (k : N) : R := match k with 0%N => 7 | 1%N => -1 | _ => -2 end.
Lemma d_lowers k a g : (k = 0 \/ k = 1 \/ k = 2)%N -> AInv a -> a_id a = k -> a_params a = dP k -> dfacts k a -> dcached k a -> like (a_pg a) g -> pg_nposes g = a_ndict a ->
  lowers g (d_line (d_at k)) (slide (d_by k) (d_line (d_at k))) = true.
Proof.
  intros Hk I Ia Pa F C L EN. pose proof (d_member k a Hk F) as MB.
  destruct F as (F1 & F2 & F3 & F4 & F5 & F6 & F7 & F8 & F9 & F10 & F11 & F12). destruct (like_fields _ _ L) as (L1 & L2 & L3 & L4 & _ & L6 & L7 & L8 & _ & L10 & _).
  pose proof (iv_r _ I) as Ir. pose proof (iv_d _ I) as Idd. rewrite Pa in Ir, Idd. change (p_r (dP k)) with 3%nat in Ir. change (p_d (dP k)) with 2%nat in Idd. pose proof L as (W & _).
  rewrite (iv_id _ I), Ia in L1. unfold dcached in C. rewrite Forall_forall in C, F12.
  assert (RP : forall e, In e (d_links k) -> exists Z, remote_pose g e = Some Z /\ mcols Z = 3%nat /\
     forall i j, (i < 3)%nat -> (j < 3)%nat -> Z i j = pose_blk 2 (d_line (d_at (robot_id (other_pose k e)))) (N.to_nat (frame_id (other_pose k e))) i j).
  { intros e He. rewrite rem_find; auto. 2:{ rewrite L1, (like_active _ _ _ L). apply F12; auto. }
    rewrite L1, EN. specialize (C e He). destruct (mfind pose_ltb (other_pose k e) (a_ndict a)) as [Z|]; [|contradiction]. destruct C as (_ & C2 & C3). exists Z. split; auto. split; auto. apply ent_eq. exact C3. }
  assert (NK : needed_known g).
  { intros e He _. rewrite L4, F5 in He. rewrite L1, EN. specialize (C e He). destruct (mfind pose_ltb (other_pose k e) (a_ndict a)) as [Z|]; [eauto|contradiction]. }
  assert (UO : used_ok g).
  { apply nposes_used; auto. intros p Z Hin. rewrite EN in Hin. destruct (iv_nd _ I) as [Sd Q]. destruct (Q p Z) as (_ & Q1 & Q2); [apply (mfind_In _ pose_total); auto|].
    rewrite Pa in Q1, Q2. cbn in Q1, Q2. split; [congruence|]. rewrite Q2. lia. }
  assert (Bs : base (a_pg a)) by (destruct MB; constructor; auto).
  assert (Sz : forall X, mrows X = 3%nat -> mcols X = 6%nat -> exists g' v, qp_f g X = Ok (g', v) /\ v = local_cost g X - local_cost g (fun _ _ => 0)).
  { intros X X1 X2. destruct (like_f_defined (a_pg a) g X L NK) as (g' & v & E); [apply Bs|apply Bs|congruence|rewrite X2, Idd, F8; reflexivity|].
    exists g', v. split; auto. apply (like_f_val _ _ _ _ _ L UO E). }
  destruct (Sz (d_line (d_at k)) eq_refl eq_refl) as (g1 & v & E1 & V1). destruct (Sz (slide (d_by k) (d_line (d_at k))) eq_refl eq_refl) as (g2 & v' & E2 & V2).
  unfold lowers. rewrite E1, E2. unfold nleb, NumR. destruct (Rle_dec v' v) as [|N]; [reflexivity|]. exfalso. apply N. rewrite V1, V2. clear - RP Hk L1 L2 L3 L4 L6 L7 L8 L10 F3 F4 F5 F6 F8 Ir Idd.
  apply Rplus_le_compat_r. unfold local_cost, private_cost, shared_cost, priors_cost. rewrite L2, L3, L4, L10, F3, F4, F5, F6, L7, L8, Ir, Idd, L1.
  destruct Hk as [-> | [-> | ->]].
  - destruct (RP (d_link 0)) as (Z & EZ & _ & HZ); [left; reflexivity|]. unfold nsumL. cbn [d_links app fold_left]. rewrite EZ. unfold edge_cost. cbn in HZ.
    cbn -[Num.mat]. rewrite ?HZ by lia. cbn. unfold sq. change (Pos.to_nat 1) with 1%nat. cbn. lra.
  - destruct (RP (d_link 0)) as (Z & EZ & _ & HZ); [left; reflexivity|]. destruct (RP (d_link 1)) as (Z' & EZ' & _ & HZ'); [right; left; reflexivity|]. unfold nsumL. cbn [d_links app fold_left]. rewrite EZ, EZ'. unfold edge_cost. cbn in HZ, HZ'.
    cbn -[Num.mat]. rewrite ?HZ, ?HZ' by lia. cbn. unfold sq. change (Pos.to_nat 1) with 1%nat. cbn. lra.
  - destruct (RP (d_link 1)) as (Z & EZ & _ & HZ); [left; reflexivity|]. unfold nsumL. cbn [d_links app fold_left]. rewrite EZ. unfold edge_cost. cbn in HZ.
    cbn -[Num.mat]. rewrite ?HZ by lia. cbn. unfold sq. change (Pos.to_nat 1) with 1%nat. cbn. lra.
Qed.

(** A robot that has not moved since makes its step. *)
Lemma d_step os t k a : (k = 0 \/ k = 1 \/ k = 2)%N -> treach rx dP 3 os t -> robot t k a -> dfacts k a -> dcached k a ->
  exists t', tm_step rx t (TCall k (AIterate (d_opt k) true)) = Ok t' /\ treach rx dP 3 (os ++ [TCall k (AIterate (d_opt k) true)]) t' /\
    est t' k = slide (d_by k) (d_line (d_at k)) /\ (forall i b, i <> k -> robot t' i b <-> robot t i b).
Proof.
  intros Hk R K F C. destruct (robot_id_of _ _ _ _ _ _ _ (tinv _ _ _ _ _ R) K) as (Ia & Pa & I). pose proof (d_member k a Hk F) as MB.
  assert (Bs : base (a_pg a)) by (destruct MB; constructor; auto). assert (Hs : a_state a = INITIALIZED) by apply F.
  assert (L : like (a_pg a) (a_pg a)).
  { split; [apply (iv_pg _ I)|]. split; [repeat split|]. destruct MB. apply coh_none; auto. }
  assert (Fu : full (a_pg a) (a_ndict a)).
  { intros e He. rewrite (iv_id _ I), Ia. assert (F5 : pg_shared (a_pg a) = d_links k) by apply F. rewrite F5 in He.
    unfold dcached in C. rewrite Forall_forall in C. specialize (C e He). destruct (mfind _ _ _) as [Z|]; [eauto|contradiction]. }
  assert (Ac : p_accel (a_params a) = false) by (rewrite Pa; reflexivity).
  destruct (slider_ok (d_by k)) as [O1 O2]. assert (EO : d_opt k = slider (d_by k)) by (destruct Hk as [-> | [-> | ->]]; reflexivity).
  destruct (iterate_plain_total rx (d_opt k) a (a_pg a) I Ac) as (a' & s & E); [unfold robust; rewrite Pa; reflexivity|exact Hs|exact Bs|exact L|rewrite EO; exact O1|exact Fu|].
  destruct (iterate_plain rx (d_opt k) a true a' s (a_pg a) E I Ac Hs Bs L) as (_ & _ & _ & Q); [intros _; rewrite EO; exact O1|intros _; exact Fu|].
  destruct (Q eq_refl) as (g & Lg & EN & EX). assert (Es : tm_step rx t (TCall k (AIterate (d_opt k) true)) = Ok (tm_put t k a')) by (cbn [tm_step]; rewrite (at_robot _ _ _ K); cbn [bind ag_step]; rewrite E; reflexivity).
  exists (tm_put t k a'). split; [exact Es|]. split; [apply (treach_step rx 3 dP os t); auto; exact Logic.I|]. split.
  - rewrite (est_at _ _ _ (put_same t k a' a K)), EX, EO, slider_val. assert (FX : pa_X (a_X a) = d_line (d_at k)) by (destruct F as (_ & _ & _ & _ & _ & _ & _ & _ & _ & _ & -> & _); reflexivity).
    rewrite FX, (d_lowers k a g Hk I Ia Pa F C Lg EN). reflexivity.
  - exact (call_other rx t k _ _ Es).
Qed.
Definition d_X (moved : list N) (k : N) : Mx R := if existsb (N.eqb k) moved then slide (d_by k) (d_line (d_at k)) else d_line (d_at k).
Notation d_cost := (team_cost 3 2 d_data (fun _ => []) (range 0 3)).
Lemma d_cost_eq ks t c : (forall k, (k = 0 \/ k = 1 \/ k = 2)%N -> est t k = d_X ks k) -> central_cost 3 2 d_data (range 0 3) (fun _ => []) (d_X ks) = c -> d_cost t = c.
Proof.
  intros E <-. unfold team_cost, central_cost. f_equal. f_equal. unfold d_data, nsumL. cbn [fold_left]. unfold central_edge. cbn [mr1 mr2 d_odom d_link N.add].
  rewrite !E by auto. reflexivity.
Qed.
Ltac d_calc := change (range 0 3) with [0; 1; 2]%N; unfold central_cost, d_data, nsumL; cbn [fold_left]; unfold central_edge, edge_cost, d_X; cbn; unfold sq; change (Pos.to_nat 1) with 1%nat; cbn; lra.
Lemma d_costs : central_cost 3 2 d_data (range 0 3) (fun _ => []) (d_X []) = 10 /\ central_cost 3 2 d_data (range 0 3) (fun _ => []) (d_X [0; 2]%N) = 9 / 2 /\
  central_cost 3 2 d_data (range 0 3) (fun _ => []) (d_X [0; 1]%N) = 25 / 2.
Proof. split; [|split]; d_calc. Qed.

Lemma d_two i j t os : (i = 0 \/ i = 1 \/ i = 2)%N -> (j = 0 \/ j = 1 \/ j = 2)%N -> i <> j -> treach rx dP 3 os t -> dready t ->
  exists t', tm_run rx t (steps d_opt [i; j]) = Ok t' /\ treach rx dP 3 (os ++ steps d_opt [i; j]) t' /\ forall k, (k = 0 \/ k = 1 \/ k = 2)%N -> est t' k = d_X [i; j] k.
Proof.
  intros Hi Hj N R D. assert (Ex : forall k, (k = 0 \/ k = 1 \/ k = 2)%N -> exists a, robot t k a /\ dfacts k a /\ dcached k a).
  { intros k Hk. pose proof D as (H0 & H1 & H2 & _). apply rhas_robot in H0, H1, H2. destruct H0 as (a0 & ? & ? & ?), H1 as (a1 & ? & ? & ?), H2 as (a2 & ? & ? & ?). destruct Hk as [-> | [-> | ->]]; eauto. }
  destruct (Ex i Hi) as (a & Ka & Fa & Ca). destruct (Ex j Hj) as (b & Kb & Fb & Cb).
  destruct (d_step os t i a Hi R Ka Fa Ca) as (t1 & E1 & R1 & X1 & O1).
  destruct (d_step _ t1 j b Hj R1 (proj2 (O1 j b (not_eq_sym N)) Kb) Fb Cb) as (t2 & E2 & R2 & X2 & O2).
  exists t2. split. { unfold tm_run, steps. cbn [map foldM]. rewrite E1. cbn [bind foldM]. rewrite E2. reflexivity. }
  split. { rewrite <- app_assoc in R2. exact R2. }
  intros k Hk. unfold d_X. cbn [existsb]. destruct (N.eqb_spec k i) as [->|N1]; cbn [orb].
  - destruct (Ex i Hi) as (a' & Ka' & _). destruct (robot_ex rx 3 dP _ t1 i R1) as (w & Kw); [lia|]. rewrite (est_at t2 i w (proj2 (O2 i w N) Kw)), <- (est_at t1 i w Kw). exact X1.
  - destruct (N.eqb_spec k j) as [->|N2]; cbn [orb]; [exact X2|].
    destruct (Ex k Hk) as (w & Kw & Fw & _). rewrite (est_at t2 k w); [|apply O2; auto; apply O1; auto].
    destruct Fw as (_ & _ & _ & _ & _ & _ & _ & _ & _ & _ & -> & _). reflexivity.
Qed.
Lemma d_start t : dready t -> d_cost t = 10.
Proof.
  intros D. apply (d_cost_eq [] t); [|apply d_costs]. intros k Hk. pose proof D as (H0 & H1 & H2 & _). apply rhas_robot in H0, H1, H2.
  destruct H0 as (a0 & K0 & F0 & _), H1 as (a1 & K1 & F1 & _), H2 as (a2 & K2 & F2 & _).
  destruct F0 as (_ & _ & _ & _ & _ & _ & _ & _ & _ & _ & F0 & _), F1 as (_ & _ & _ & _ & _ & _ & _ & _ & _ & _ & F1 & _), F2 as (_ & _ & _ & _ & _ & _ & _ & _ & _ & _ & F2 & _).
  destruct Hk as [-> | [-> | ->]]; [rewrite (est_at _ _ _ K0), F0|rewrite (est_at _ _ _ K1), F1|rewrite (est_at _ _ _ K2), F2]; reflexivity.
Qed.
Lemma d_apart t : dready t -> apart t [0; 2]%N.
Proof.
  intros D i j a e Hi Hj K He. destruct (dready_robot t i a D K) as (_ & F & _). assert (F5 : pg_shared (a_pg a) = d_links i) by apply F. rewrite F5 in He.
  destruct Hi as [<-|[<-|[]]], Hj as [<-|[<-|[]]]; cbn in He; destruct He as [<-|[]]; cbn; discriminate.
Qed.
Lemma d_opt_ok k : opt_sized (d_opt k) /\ descending (d_opt k).
Proof. apply slider_ok. Qed.

(** Robots 0 and 2 share no edge. *)
Lemma d_descends : exists os t0 t, treach rx dP 3 os t0 /\ (forall k a, robot t0 k a -> member 3 2 d_data (fun _ => []) k (dP k) a) /\ apart t0 [0; 2]%N /\ (forall j, uptodate 3 2 t0 j) /\
  careful 3 2 rx t0 (steps d_opt [0; 2]%N) /\ tm_run rx t0 (steps d_opt [0; 2]%N) = Ok t /\ d_cost t0 = 10 /\ d_cost t = 9 / 2.
Proof.
  destruct dteam_ready as (t0 & R & D). destruct (d_two 0 2 t0 _ ltac:(auto) ltac:(auto) ltac:(discriminate) R D) as (t & E & _ & X).
  exists (d_setup ++ d_pass), t0, t. split; [exact R|]. split. { intros k a K. destruct (dready_robot t0 k a D K) as (Hk & F & _). apply d_member; auto. }
  split; [apply d_apart; auto|]. split; [intros j; apply d_uptodate; auto|]. split.
  { apply parallel_careful. - intros; apply d_opt_ok. - repeat constructor; cbn; intuition discriminate. - apply d_apart; auto. - intros; apply d_uptodate; auto. }
  split; [exact E|]. split; [apply d_start; auto|]. apply (d_cost_eq [0; 2]%N t); [exact X|apply d_costs].
Qed.
(** Robots 0 and 1 do. *)
Lemma d_raises : exists os t0 t, treach rx dP 3 os t0 /\ (forall k a, robot t0 k a -> member 3 2 d_data (fun _ => []) k (dP k) a) /\ (forall j, uptodate 3 2 t0 j) /\
  (forall k, opt_sized (d_opt k) /\ descending (d_opt k)) /\ tm_run rx t0 (steps d_opt [0; 1]%N) = Ok t /\ d_cost t0 = 10 /\ d_cost t = 25 / 2.
Proof.
  destruct dteam_ready as (t0 & R & D). destruct (d_two 0 1 t0 _ ltac:(auto) ltac:(auto) ltac:(discriminate) R D) as (t & E & _ & X).
  exists (d_setup ++ d_pass), t0, t. split; [exact R|]. split. { intros k a K. destruct (dready_robot t0 k a D K) as (Hk & F & _). apply d_member; auto. }
  split; [intros j; apply d_uptodate; auto|]. split; [apply d_opt_ok|]. split; [exact E|]. split; [apply d_start; auto|]. apply (d_cost_eq [0; 1]%N t); [exact X|apply d_costs].
Qed.
(** The hypotheses of the rounds. *)
Definition d_nb (k : N) : list N := match k with 0%N => [1%N] | 1%N => [0%N; 2%N] | 2%N => [1%N] | _ => [] end.
Lemma d_rounds : exists t0, treach rx dP 3 d_setup t0 /\ (forall k a, robot t0 k a -> member 3 2 d_data (fun _ => []) k (dP k) a /\ a_YLift a <> None) /\
  (forall k, costType (p_robust (dP k)) = L2) /\ (forall j, opt_sized (d_opt j) /\ descending (d_opt j)) /\ (forall j k, In k (d_nb j) -> k <> j /\ (k < 3)%N) /\
  (forall j a e, robot t0 j a -> In e (pg_shared (a_pg a)) -> In (robot_id (other_pose j e)) (d_nb j)).
Proof.
  destruct dteam as (t0 & R & H0 & H1 & H2 & HL & _). exists t0. split; [exact R|].
  assert (Rb : forall k a, robot t0 k a -> (k = 0 \/ k = 1 \/ k = 2)%N /\ dfacts k a).
  { intros k a K. assert (N.to_nat k < 3)%nat by (rewrite <- HL; apply nth_error_Some; unfold robot in K; congruence).
    assert (Hk : (k = 0 \/ k = 1 \/ k = 2)%N) by lia. split; auto. unfold rhas in *. unfold robot in K. destruct Hk as [-> | [-> | ->]]; rewrite K in *; auto. }
  split. { intros k a K. destruct (Rb k a K) as [Hk F]. split; [apply d_member; auto|]. destruct F as (_ & -> & _). discriminate. }
  split; [reflexivity|]. split; [apply d_opt_ok|]. split.
  - intros j k Hk. unfold d_nb in Hk. destruct j as [|[[]|[[]|[]|]|]]; cbn in Hk; try contradiction; repeat (destruct Hk as [<-|Hk]; [split; [discriminate|reflexivity]|]); contradiction.
  - intros j a e K He. destruct (Rb j a K) as [Hk F]. assert (F5 : pg_shared (a_pg a) = d_links j) by apply F. rewrite F5 in He.
    destruct Hk as [-> | [-> | ->]]; cbn in He; repeat (destruct He as [<-|He]; [cbn; auto|]); contradiction.
Qed.
