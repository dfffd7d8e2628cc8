(** Passing poses on, and the weights of shared edges (C64). *)
From Coq Require Import List NArith ZArith Bool Arith Lia Reals.
From Verif Require Import Base SMap Num RSum ModelTypes ModelPoseGraph ModelRobust ModelPoses ModelSolver ModelAgent ModelTeam SpecPoseGraph SpecCost SpecSolver SpecAgent SpecStatus SpecFrames SpecTeam
  ProofsPoseGraph ProofsPGMain ProofsAgent ProofsAgent2 ProofsAgent3 ProofsAgent4 ProofsAgent5 ProofsAgent6 ProofsStatus ProofsCost4 ProofsResidual ProofsTeam ProofsTeam2.
Import ListNotations.
Local Open Scope res_scope.

Section T.
Context {S : Type} `{HS : Num S}.
Implicit Types (a b : Agent S) (x : Ext S) (t : Team S).

Lemma put_other t k j a b : j <> k -> robot t j b -> robot (tm_put t k a) j b.
Proof. unfold robot, tm_put. cbn [tm_agents]. intros N K. rewrite upd_nth. destruct (Nat.eqb_spec (N.to_nat k) (N.to_nat j)); [lia|exact K]. Qed.
Lemma at_robot t k a : robot t k a -> tm_at t k = Ok a.
Proof. unfold robot, tm_at. intros ->. reflexivity. Qed.
Lemma store_tot a k D : forall c, (forall kv, In kv D -> robot_id (fst kv) = k /\ mrows (snd kv) = p_r (a_params a) /\ mcols (snd kv) = (p_d (a_params a) + 1)%nat) ->
  exists c', store_poses a k D c = Ok c'.
Proof.
  unfold store_poses. induction D as [|kv D IH]; intros c H; [cbn; eauto|]. cbn [foldM].
  destruct (H kv (or_introl eq_refl)) as (H1 & H2 & H3). rewrite H1, H2, H3, N.eqb_refl, !Nat.eqb_refl. cbn [check].
  destruct (requireNeighborPose (a_pg a) (fst kv)); cbn [bind]; apply IH; intros; apply H; right; auto.
Qed.
Lemma dict_size a M sel D : AInv a -> dict_spec a M sel D -> forall kv, In kv D ->
  robot_id (fst kv) = a_id a /\ mrows (snd kv) = p_r (a_params a) /\ mcols (snd kv) = (p_d (a_params a) + 1)%nat.
Proof.
  intros I [Hs Hf] kv Hin. assert (F : mfind pose_ltb (fst kv) D = Some (snd kv)).
  { apply (mfind_In _ pose_total _ _ _ Hs). destruct kv; exact Hin. }
  apply Hf in F. destruct F as ((e & He & _ & Ep) & ->). split; [|auto]. rewrite <- Ep. apply (own_pose_in a e I He).
Qed.

(** The public poses of [k] reach [j] whole. *)
Theorem team_pass x P m os t j k a b : treach x P m os t -> robot t j a -> robot t k b -> j <> k -> a_state a = INITIALIZED -> a_state b = INITIALIZED ->
  a_YLift a <> None -> p_r (P j) = p_r (P k) -> p_d (P j) = p_d (P k) ->
  exists t' c, tm_run x t (pass k j (length (tm_status t)) (length (tm_poses t))) = Ok t' /\ treach x P m (os ++ pass k j (length (tm_status t)) (length (tm_poses t))) t' /\
    robot t' j (sa_ndict (ag_setNeighborStatus a (a_status (ag_getStatus b))) c) /\ robot t' k (ag_getStatus b) /\
    (forall i w, i <> j -> i <> k -> robot t' i w <-> robot t i w) /\
    length (tm_status t') = Datatypes.S (length (tm_status t)) /\ length (tm_poses t') = Datatypes.S (length (tm_poses t)) /\
    (forall q, touches a q -> (exists e, In e (pg_shared (a_pg b)) /\ own_pose k e = q) ->
       exists v, mfind pose_ltb q c = Some v /\ is_block (p_r (P k)) (p_d (P k)) (pa_X (a_X b)) (N.to_nat (frame_id q)) v) /\
    (forall q, ~ touches a q \/ ~ (exists e, In e (pg_shared (a_pg b)) /\ own_pose k e = q) -> mfind pose_ltb q c = mfind pose_ltb q (a_ndict a)).
Proof.
  intros R Kj Kk N Sa Sb HY Er Ed. pose proof (tinv _ _ _ _ _ R) as I.
  destruct (robot_id_of _ _ _ _ _ _ _ I Kj) as (Ia & Pa & Ina). destruct (robot_id_of _ _ _ _ _ _ _ I Kk) as (Ib & Pb & Inb).
  set (b1 := ag_getStatus b). set (a1 := ag_setNeighborStatus a (a_status b1)).
  destruct (ti_agent _ _ _ _ _ I k b Kk) as (lb & Rb & _). destruct (c33_estimate _ _ _ _ _ Rb) as (_ & _ & _ & G); [congruence|].
  destruct (G Sb) as (_ & _ & (D & ED & SD) & _).
  assert (ED1 : ag_getSharedPoseDict b1 = Ok (Some D)) by exact ED.
  assert (DZ : forall kv, In kv D -> robot_id (fst kv) = k /\ mrows (snd kv) = p_r (a_params a1) /\ mcols (snd kv) = (p_d (a_params a1) + 1)%nat).
  { intros kv Hkv. destruct (dict_size _ _ _ _ Inb SD kv Hkv) as (Q1 & Q2 & Q3). rewrite Pb in Q2, Q3. rewrite Ib in Q1. change (a_params a1) with (a_params a). rewrite Pa, Er, Ed. auto. }
  destruct (store_tot a1 k D (a_ndict a1) DZ) as (c & Ec). destruct (store_poses_spec _ _ _ _ _ Ec) as (_ & _ & V). specialize (V (proj1 SD)).
  assert (EU : ag_updateNeighborPoses x a1 k D = Ok (sa_ndict a1 c)).
  { unfold ag_updateNeighborPoses. change (a_id a1) with (a_id a). rewrite Ia. destruct (N.eqb_spec k j); [congruence|]. cbn [check negb].
    assert (Rd : nbr_ready a1 k = true).
    { unfold nbr_ready, a1, ag_setNeighborStatus, b1. cbn [a_YLift sa_team a_team ag_getStatus sa_status a_status st_id].
      rewrite Ib, (mfind_mset_eq _ Nltb_total). destruct (a_YLift a); [|contradiction]. cbn [st_state]. rewrite Sb. reflexivity. }
    rewrite Rd. change (a_state a1) with (a_state a). rewrite Sa. cbn [negb state_eqb bind]. unfold is_init. change (a_state a1) with (a_state a). rewrite Sa. cbn [state_eqb negb]. rewrite Ec. reflexivity. }
  set (t1 := mkTeam (tm_agents (tm_put t k b1)) (tm_poses t) (tm_status t ++ [a_status b1])).
  set (t2 := mkTeam (tm_agents t1) (tm_poses t ++ [mkPoseMsg k false D]) (tm_status t1)).
  set (t3 := tm_put t2 j a1). set (t4 := tm_put t3 j (sa_ndict a1 c)).
  assert (K1k : robot t2 k b1) by (apply (put_same t k b1 b Kk)).
  assert (K1j : robot t2 j a) by (apply (put_other t k j b1 a N Kj)).
  assert (E : tm_run x t (pass k j (length (tm_status t)) (length (tm_poses t))) = Ok t4).
  { assert (E1 : tm_step x t (TSendStatus k) = Ok t1) by (cbn [tm_step]; rewrite (at_robot _ _ _ Kk); reflexivity).
    assert (E2 : tm_step x t1 (TSendPoses k false None) = Ok t2).
    { cbn [tm_step]. rewrite (at_robot t1 k b1 K1k). cbn [bind tm_get]. rewrite ED1. cbn [bind]. change (a_id b1) with (a_id b). rewrite Ib. reflexivity. }
    assert (E3 : tm_step x t2 (TStatus j (length (tm_status t))) = Ok t3).
    { cbn [tm_step]. change (tm_status t2) with (tm_status t ++ [a_status b1]). rewrite nth_error_app2, Nat.sub_diag by lia. cbn [nth_error]. rewrite (at_robot t2 j a K1j). reflexivity. }
    assert (E4 : tm_step x t3 (TPoses j (length (tm_poses t))) = Ok t4).
    { cbn [tm_step]. change (tm_poses t3) with (tm_poses t ++ [mkPoseMsg k false D]). rewrite nth_error_app2, Nat.sub_diag by lia. cbn [nth_error pm_aux pm_from pm_dict].
      rewrite (at_robot t3 j a1 (put_same t2 j a1 a K1j)). cbn [bind ag_step]. rewrite EU. reflexivity. }
    unfold tm_run, pass. cbn [foldM]. rewrite E1. cbn [bind]. rewrite E2. cbn [bind]. rewrite E3. cbn [bind]. rewrite E4. reflexivity. }
  exists t4, c. split; [exact E|]. split.
  { destruct R as [R F]. split.
    - destruct (tm_new x P m) as [t0| |] eqn:E0; cbn [bind] in R |- *; try discriminate. unfold tm_run in *. rewrite foldM_app, R. exact E.
    - apply Forall_app. split; auto. repeat constructor; cbn; auto. discriminate. }
  assert (K3 : robot t3 k b1) by (apply put_other; auto). split; [apply (put_same t3 j _ a1); apply (put_same t2 j a1 a); auto|]. split; [apply put_other; auto|]. split.
  { intros i w N1 N2. split.
    - intros K. apply put_robot in K. destruct K as [[? _]|[_ K]]; [contradiction|]. apply put_robot in K. destruct K as [[? _]|[_ K]]; [contradiction|].
      assert (K' : robot (tm_put t k b1) i w) by exact K. apply put_robot in K'. destruct K' as [[? _]|[_ K']]; [contradiction|auto].
    - intros K. apply put_other; auto. apply put_other; auto. apply (put_other t k i b1 w); auto. }
  split; [cbn; rewrite app_length; cbn; lia|]. split; [cbn; rewrite app_length; cbn; lia|].
  assert (Tq : forall q, touches a q <-> requireNeighborPose (a_pg a1) q = true) by (intros q; apply (touches_npub a q Ina)).
  destruct SD as [_ HD]. rewrite Ib, Pb in HD. split.
  - intros q Hq (e & He & Eo). apply Tq in Hq. rewrite V, Hq.
    assert (F := proj2 (HD q (mblock (pa_X (a_X b)) 0 (N.to_nat (frame_id q) * (p_d (P k) + 1)) (p_r (P k)) (p_d (P k) + 1)))). rewrite F; [|split; [exists e; auto|reflexivity]].
    eexists. split; [reflexivity|]. apply block_is.
  - intros q Hq. rewrite V. destruct (mfind pose_ltb q D) as [v|] eqn:F; [|reflexivity]. apply HD in F. destruct F as ((e & He & _ & Eo) & _).
    destruct Hq as [Hq|Hq]; [rewrite Tq in Hq; destruct (requireNeighborPose (a_pg a1) q); [congruence|reflexivity]|destruct Hq; eauto].
Qed.
End T.

(** ** Weights *)
Lemma shared_ends id (e : Meas R) : is_shared id e = true -> (mr1 e = id /\ mr2 e <> id) \/ (mr2 e = id /\ mr1 e <> id).
Proof. unfold is_shared. destruct (N.eqb_spec (mr1 e) id), (N.eqb_spec (mr2 e) id); cbn; intros; try discriminate; auto. Qed.
Lemma weight_from x id p os a a' (e : Meas R) b X : areach x id p os a -> a_state a = INITIALIZED -> In e (pg_shared (a_pg a)) -> mfixed e = false -> lc_active a e = true ->
  fresh (p_r p) (p_d p) id a b e -> X id = a_X a -> X (robot_id (other_pose id e)) = a_X b -> ag_updateMeasurementWeights a = Ok a' ->
  In (set_mweight (weight (a_rc a) (edge_res (p_r p) (p_d p) e X)) e) (pg_shared (a_pg a')).
Proof.
  intros R Sa He Hf Ha (v & Fv & _ & _ & Bv) Xa Xb E. pose proof (areach_inv _ _ _ _ _ R) as I. destruct (hist_all _ _ _ _ _ R) as (Hid & Hp & _).
  destruct (iv_X _ I ltac:(congruence)) as [_ AX]. rewrite Hp in AX.
  destruct (proj2 (c25_update _ _ _ _ _ _ R E) Sa) as (_ & _ & ->). apply in_map_iff. exists e. split; auto. rewrite Ha. unfold reweighted. rewrite Hf.
  rewrite (residual_value x id p os a e R Sa) by (unfold measurements; rewrite !in_app_iff; auto).
  destruct (own_pose_in a e I He) as (_ & _ & _ & Hs). rewrite Hid in Hs. unfold edge_res, known_pose. cbn [robot_id frame_id]. rewrite Hid.
  assert (Hd : pa_d (a_X a) = p_d p) by (apply AX).
  destruct (shared_ends id e Hs) as [[E1 E2]|[E1 E2]].
  - rewrite <- N.eqb_eq in E1. apply N.eqb_neq in E2. unfold other_pose in *. rewrite E1 in *. rewrite E2, Fv. do 3 f_equal. apply N.eqb_eq in E1. cbn [robot_id frame_id] in *. apply edge_cost_ext; intros u c Hu Hc.
    + unfold pose_of_all, pblk. rewrite E1, Xa, Hd. reflexivity.
    + unfold pose_of_all. rewrite Xb. apply Bv; lia.
  - rewrite <- N.eqb_eq in E1. apply N.eqb_neq in E2. unfold other_pose in *. rewrite E2 in *. rewrite E1, Fv. do 3 f_equal. apply N.eqb_eq in E1. cbn [robot_id frame_id] in *. apply edge_cost_ext; intros u c Hu Hc.
    + unfold pose_of_all. rewrite Xb. apply Bv; lia.
    + unfold pose_of_all, pblk. rewrite E1, Xa, Hd. reflexivity.
Qed.

Lemma edge_res_strip r d (e e' : Meas R) X : strip e' = strip e -> edge_res r d e' X = edge_res r d e X.
Proof. unfold strip. intros [= E1 E2 E3 E4 E5 E6 E7 E8]. unfold edge_res, edge_cost. cbn [set_mweight mweight mkappa mtau mR mt]. rewrite E1, E2, E3, E4, E5, E6, E7, E8. reflexivity. Qed.

Theorem team_weights (x : Ext R) P m os t j k a b (e e' : Meas R) t' :
  treach x P m os t -> robot t j a -> robot t k b -> a_state a = INITIALIZED -> a_state b = INITIALIZED ->
  a_YLift a <> None -> a_YLift b <> None -> p_r (P j) = p_r (P k) -> p_d (P j) = p_d (P k) -> a_rc a = a_rc b ->
  In e (pg_shared (a_pg a)) -> In e' (pg_shared (a_pg b)) -> strip e' = strip e -> robot_id (other_pose j e) = k ->
  mfixed e = false -> mfixed e' = false -> lc_active a e = true -> lc_active b e' = true ->
  let ns := length (tm_status t) in let np := length (tm_poses t) in
  tm_run x t (pass k j ns np ++ pass j k (Datatypes.S ns) (Datatypes.S np) ++ [TCall j AUpdWeights; TCall k AUpdWeights]) = Ok t' ->
  let w := weight (a_rc a) (edge_res (p_r (P j)) (p_d (P j)) e (fun i => if (i =? j)%N then a_X a else a_X b)) in
  exists a' b', robot t' j a' /\ robot t' k b' /\ In (set_mweight w e) (pg_shared (a_pg a')) /\ In (set_mweight w e') (pg_shared (a_pg b')).
Proof.
  intros R Kj Kk Sa Sb Ya Yb Er Ed Ec Ha Hb Es Ek Fa Fb La Lb ns np E w.
  destruct (robot_id_of _ _ _ _ _ _ _ (tinv _ _ _ _ _ R) Kj) as (Ia & Pa & Ina). destruct (robot_id_of _ _ _ _ _ _ _ (tinv _ _ _ _ _ R) Kk) as (Ib & Pb & Inb).
  destruct (own_pose_in a e Ina Ha) as (Q1 & _ & _ & Sha). destruct (own_pose_in b e' Inb Hb) as (Q2 & _ & _ & Shb). rewrite Ia in *. rewrite Ib in *.
  assert (Es' := Es). unfold strip in Es'. injection Es' as S1 S2 S3 S4 _ _ _ _.
  assert (N : j <> k). { intros ->. unfold other_pose in Ek. destruct (shared_ends k e Sha) as [[X Y]|[X Y]]; destruct (N.eqb_spec (mr1 e) k); cbn in Ek; congruence. }
  assert (O1 : other_pose j e = own_pose k e').
  { unfold other_pose, own_pose in *. rewrite S1, S2, S3, S4. destruct (shared_ends j e Sha) as [[X Y]|[X Y]]; destruct (N.eqb_spec (mr1 e) j); try congruence; cbn in Ek; destruct (N.eqb_spec (mr1 e) k); congruence. }
  assert (O2 : other_pose k e' = own_pose j e).
  { unfold other_pose, own_pose in *. rewrite S1, S2, S3, S4. destruct (shared_ends j e Sha) as [[X Y]|[X Y]]; destruct (N.eqb_spec (mr1 e) j); try congruence; cbn in Ek; destruct (N.eqb_spec (mr1 e) k); congruence. }
  destruct (team_pass x P m os t j k a b R Kj Kk N Sa Sb Ya Er Ed) as (t1 & c1 & E1 & R1 & K1j & K1k & _ & Ls & Lp & C1 & _). fold ns np in E1, R1, Ls, Lp.
  set (a1 := sa_ndict _ c1) in K1j.
  destruct (team_pass x P m _ t1 k j (ag_getStatus b) a1 R1 K1k K1j (not_eq_sym N) Sb Sa Yb (eq_sym Er) (eq_sym Ed)) as (t2 & c2 & E2 & R2 & K2k & K2j & _ & _ & _ & C2 & _). rewrite Ls, Lp in E2, R2.
  set (a2 := ag_getStatus a1) in *. set (b2 := sa_ndict _ c2) in K2k. unfold tm_run in E. rewrite foldM_app in E. unfold tm_run in E1, E2. rewrite E1 in E. cbn [bind] in E. rewrite foldM_app, E2 in E. cbn [bind foldM] in E.
  destruct (tm_step x t2 (TCall j AUpdWeights)) as [t3| |] eqn:E3; cbn [bind] in E; try discriminate. cbn [tm_step ag_step] in E3. rewrite (at_robot _ _ _ K2j) in E3. cbn [bind] in E3.
  destruct (ag_updateMeasurementWeights a2) as [a3| |] eqn:Ea; cbn [bind] in E3; try discriminate. injection E3 as <-.
  destruct (tm_step x _ (TCall k AUpdWeights)) as [t4| |] eqn:E4 in E; cbn [bind] in E; try discriminate. injection E as ->. cbn [tm_step ag_step] in E4.
  rewrite (at_robot _ k b2 (put_other t2 j k a3 b2 (not_eq_sym N) K2k)) in E4. cbn [bind] in E4.
  destruct (ag_updateMeasurementWeights b2) as [b3| |] eqn:Eb; cbn [bind] in E4; try discriminate. injection E4 as <-.
  exists a3, b3. split; [apply put_other; auto; apply (put_same t2 j a3 a2); auto|]. split; [apply (put_same _ k b3 b2); apply put_other; auto|].
  pose proof (tinv _ _ _ _ _ R2) as I2. destruct (ti_agent _ _ _ _ _ I2 j a2 K2j) as (la & Ra & _). destruct (ti_agent _ _ _ _ _ I2 k b2 K2k) as (lb & Rb & _).
  split.
  - apply (weight_from x j (P j) la a2 a3 e b); auto.
    + rewrite Er, Ed. unfold fresh. destruct (C1 (other_pose j e)) as (v & F & B); [exists e; rewrite Ia; auto|exists e'; auto|]. exists v. split; auto.
    + rewrite N.eqb_refl. reflexivity.
    + rewrite Ek. destruct (N.eqb_spec k j); [congruence|reflexivity].
  - unfold w. rewrite Ec, Er, Ed, <- (edge_res_strip _ _ e e' _ Es). apply (weight_from x k (P k) lb b2 b3 e' a); auto.
    + rewrite <- Er, <- Ed. unfold fresh. destruct (C2 (other_pose k e')) as (v & F & B); [exists e'; split; auto; cbn; rewrite Ib; auto|exists e; auto|]. exists v. split; auto.
    + destruct (N.eqb_spec k j); [congruence|reflexivity].
    + rewrite O2, Q1, N.eqb_refl. reflexivity.
Qed.
