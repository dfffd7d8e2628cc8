(** Shared pose dictionaries, team decisions, neighbour pose cache. *)
From Coq Require Import List NArith ZArith Bool Arith Lia.
From Verif Require Import Base SMap Num ModelTypes ModelPoseGraph ModelProblem ModelRobust ModelPoses ModelSolver ModelAgent
  SpecPoseGraph SpecPGHist SpecSolver SpecAgent ProofsPoseGraph ProofsPGHist ProofsPGMain ProofsPGData ProofsPoses ProofsAgent ProofsAgent2 ProofsAgent3.
Import ListNotations.
Local Open Scope res_scope.

Section A.
Context {S : Type} `{HS : Num S}.
Implicit Types (a : Agent S) (g : PoseGraph S) (T X : PoseArr S) (x : Ext S) (e : event S).

(** *** Dictionaries *)
Lemma pa_pose_block r d n T i : arr r d n T -> (i < n)%nat ->
  exists v, pa_pose T i = Ok v /\ is_block r d (pa_X T) i v.
Proof.
  intros (E1 & E2 & E3 & E4 & E5) Hi. unfold pa_pose. rewrite E3. apply Nat.ltb_lt in Hi. rewrite Hi. cbn [check].
  eexists. split; [reflexivity|]. rewrite E1, E2. unfold is_block, mblock; cbn. auto.
Qed.

Lemma emplace_fold {B} (get : B -> res (Mx S)) (key : B -> PoseID) (val : PoseID -> Mx S) L :
  (forall q, In q L -> get q = Ok (val (key q))) -> forall m0, msorted pose_ltb m0 ->
  exists m, foldM (fun map q => do M <- get q; Ok (memplace pose_ltb (key q) M map)) m0 L = Ok m /\ msorted pose_ltb m /\
    forall p v, mfind pose_ltb p m = Some v <->
      mfind pose_ltb p m0 = Some v \/ (mfind pose_ltb p m0 = None /\ (exists q, In q L /\ key q = p) /\ v = val p).
Proof.
  induction L as [|q L IH]; intros Hg m0 Hs.
  - exists m0. split; [reflexivity|]. split; auto. intros p v. split; auto. intros [|(_ & (q & [] & _) & _)]; auto.
  - cbn [foldM]. rewrite (Hg q (or_introl eq_refl)). cbn [bind].
    destruct (IH (fun q' H' => Hg q' (or_intror H')) (memplace pose_ltb (key q) (val (key q)) m0)) as (m & E & Hm & Hf).
    { apply memplace_sorted; auto. apply pose_total. }
    exists m. split; auto. split; auto. intros p v. rewrite Hf.
    assert (Q : mfind pose_ltb p (memplace pose_ltb (key q) (val (key q)) m0) =
                match mfind pose_ltb p m0 with Some w => Some w | None => if poseid_eqb p (key q) then Some (val p) else None end).
    { unfold memplace. destruct (poseid_eqb p (key q)) eqn:Ek.
      - apply poseid_eqb_eq in Ek. subst p. destruct (mfind pose_ltb (key q) m0) eqn:F; [rewrite F; reflexivity|].
        apply mfind_mset_eq, pose_total.
      - assert (Hne : p <> key q) by (intros ->; assert (poseid_eqb (key q) (key q) = true) by (apply poseid_eqb_eq; auto); congruence).
        destruct (mfind pose_ltb (key q) m0) eqn:F; [|rewrite (mfind_mset_neq _ pose_total) by auto]; destruct (mfind pose_ltb p m0); auto. }
    rewrite Q. destruct (mfind pose_ltb p m0) as [w|] eqn:F.
    + split; [intros [H|(H & _)]; [auto|discriminate]|]. intros [H|(H & _)]; [auto|discriminate].
    + destruct (poseid_eqb p (key q)) eqn:Ek.
      * apply poseid_eqb_eq in Ek. split.
        -- intros [H|(H & _)]; [|discriminate]. injection H as <-. right. split; auto. split; auto. exists q. cbn; auto.
        -- intros [H|(_ & _ & ->)]; [discriminate|]. auto.
      * split.
        -- intros [H|(_ & (q' & Hq & K) & ->)]; [discriminate|]. right. split; auto. split; auto. exists q'. cbn; auto.
        -- intros [H|(_ & (q' & [->|Hq] & K) & ->)]; [discriminate| |].
           ++ subst p. assert (poseid_eqb (key q') (key q') = true) by (apply poseid_eqb_eq; auto). congruence.
           ++ right. split; auto. split; auto. exists q'; auto.
Qed.

Lemma own_pose_in a m : AInv a -> In m (pg_shared (a_pg a)) ->
  robot_id (own_pose (a_id a) m) = a_id a /\ (frame_id (own_pose (a_id a) m) < pg_n (a_pg a))%N /\
  ids_ok m /\ is_shared (a_id a) m = true.
Proof.
  intros I Hm. pose proof (iv_pg _ I) as W. pose proof (wf_shared _ W _ Hm) as Hs. rewrite (iv_id _ I) in Hs.
  assert (Hin : In m (measurements (a_pg a))) by (unfold measurements; rewrite !in_app_iff; auto).
  pose proof (wf_ids _ W _ Hin) as Hi. pose proof (proj1 (wf_n _ W) m) as Hn. rewrite (iv_id _ I) in Hn.
  cut (robot_id (own_pose (a_id a) m) = a_id a /\ (frame_id (own_pose (a_id a) m) < pg_n (a_pg a))%N); [tauto|].
  unfold own_pose, own_poses in *. unfold is_shared in Hs.
  destruct (mr1 m =? a_id a)%N eqn:R1, (mr2 m =? a_id a)%N eqn:R2; cbn in Hs; try discriminate.
  - apply N.eqb_eq in R1. split; auto. cbn. apply (Hn (mp1 m)); auto. cbn; auto.
  - apply N.eqb_eq in R2. split; auto. cbn. apply (Hn (mp2 m)); auto. cbn; auto.
Qed.

Lemma pa_pose_eq r d n T i : arr r d n T -> (i < n)%nat -> pa_pose T i = Ok (mblock (pa_X T) 0 (i * (d + 1)) r (d + 1)).
Proof.
  intros (E1 & E2 & E3 & E4 & E5) Hi. unfold pa_pose. rewrite E3. apply Nat.ltb_lt in Hi. rewrite Hi. cbn. rewrite E1, E2. reflexivity.
Qed.

Lemma pose_dict_spec a X : AInv a -> arr (p_r (a_params a)) (p_d (a_params a)) (num_poses a) X ->
  exists D, pose_dict a X = Ok D /\ dict_spec a (pa_X X) (fun _ => True) D.
Proof.
  intros I HX. pose proof (iv_pg _ I) as W.
  set (val := fun p : PoseID => mblock (pa_X X) 0 (N.to_nat (frame_id p) * (p_d (a_params a) + 1)) (p_r (a_params a)) (p_d (a_params a) + 1)).
  destruct (emplace_fold (fun p => check (robot_id p =? a_id a)%N (pa_pose X (N.to_nat (frame_id p)))) (fun p => p) val (pg_lpub (a_pg a))) with (m0 := @nil (PoseID * Mx S)) as (D & E & Hs & Hf).
  - intros p Hp. apply (wf_lpub _ W) in Hp. destruct Hp as (m & Hm & <-). rewrite (iv_id _ I).
    destruct (own_pose_in _ _ I Hm) as (E1 & E2 & _). rewrite E1, N.eqb_refl. cbn [check].
    rewrite (pa_pose_eq _ _ _ _ _ HX) by (unfold num_poses; lia). reflexivity.
  - exact Logic.I.
  - exists D. split.
    + unfold pose_dict. rewrite <- E. clear.
      generalize (@nil (PoseID * Mx S)). induction (pg_lpub (a_pg a)) as [|p l IH]; intros m; [reflexivity|]. cbn [foldM].
      destruct (robot_id p =? a_id a)%N; cbn [check bind]; [|reflexivity].
      destruct (pa_pose X (N.to_nat (frame_id p))); cbn [bind]; auto.
    + split; auto. intros p v. rewrite Hf. cbn. split.
      * intros [H|(_ & (q & Hq & ->) & ->)]; [discriminate|]. split; auto.
        apply (wf_lpub _ W) in Hq. destruct Hq as (m & Hm & E1). rewrite (iv_id _ I) in E1. eauto.
      * intros ((m & Hm & _ & <-) & ->). right. split; auto. split; auto. eexists. split; [|reflexivity].
        apply (wf_lpub _ W). exists m. rewrite (iv_id _ I). auto.
Qed.

Lemma pose_dict_with_spec a X k : AInv a -> arr (p_r (a_params a)) (p_d (a_params a)) (num_poses a) X ->
  exists D, pose_dict_with a X k = Ok D /\ dict_spec a (pa_X X) (fun m => mr1 m = k \/ mr2 m = k) D.
Proof.
  intros I HX. pose proof (iv_pg _ I) as W.
  set (val := fun p : PoseID => mblock (pa_X X) 0 (N.to_nat (frame_id p) * (p_d (a_params a) + 1)) (p_r (a_params a)) (p_d (a_params a) + 1)).
  destruct (emplace_fold (fun m : Meas S => pa_pose X (N.to_nat (frame_id (own_pose (a_id a) m)))) (own_pose (a_id a)) val
     (sharedLoopClosuresWithRobot (a_pg a) k)) with (m0 := @nil (PoseID * Mx S)) as (D & E & Hs & Hf).
  - intros m Hm. apply filter_In in Hm. destruct Hm as [Hm _].
    destruct (own_pose_in _ _ I Hm) as (E1 & E2 & _).
    rewrite (pa_pose_eq _ _ _ _ _ HX) by (unfold num_poses; lia). reflexivity.
  - exact Logic.I.
  - exists D. split.
    + unfold pose_dict_with. rewrite <- E.
      assert (HL : forall m, In m (sharedLoopClosuresWithRobot (a_pg a) k) -> In m (pg_shared (a_pg a))) by (intros m Hm; apply filter_In in Hm; tauto).
      clear -I HL. revert HL.
      generalize (@nil (PoseID * Mx S)). induction (sharedLoopClosuresWithRobot (a_pg a) k) as [|m l IH]; intros m0 HL; [reflexivity|]. cbn [foldM].
      destruct (own_pose_in _ _ I (HL m (or_introl eq_refl))) as (E1 & E2 & (B1 & B2 & B3 & B4) & Hsh).
      unfold own_pose, pose_of in *. unfold is_shared in Hsh.
      destruct (mr1 m =? a_id a)%N eqn:R1, (mr2 m =? a_id a)%N eqn:R2; cbn in Hsh; try discriminate;
        rewrite !u32_small by lia; cbn [frame_id];
        (match goal with |- context [pa_pose X ?i] => destruct (pa_pose X i) end); cbn [bind]; auto;
        apply IH; intros; apply HL; cbn; auto.
    + split; auto. intros p v. rewrite Hf. cbn. split.
      * intros [H|(_ & (m & Hq & E1) & ->)]; [discriminate|]. split; auto.
        apply filter_In in Hq. destruct Hq as [Hq Hk]. apply orb_true_iff in Hk. rewrite !N.eqb_eq in Hk. eauto.
      * intros ((m & Hm & Hk & E1) & ->). right. split; auto. split; auto. exists m. split; [|exact E1].
        apply filter_In. split; auto. apply orb_true_iff. rewrite !N.eqb_eq. auto.
Qed.

(** *** Team decisions *)
Lemma isActive_ok a k : AInv a -> exists b, ag_isRobotActive a k = Ok b /\
  (b = true <-> (k < p_numRobots (a_params a))%N /\ nth_error (a_active a) (N.to_nat k) = Some true).
Proof.
  intros I. unfold ag_isRobotActive. destruct (p_numRobots (a_params a) <=? k)%N eqn:L.
  - apply N.leb_le in L. exists false. split; auto. split; [discriminate|]. lia.
  - apply N.leb_gt in L. unfold vec_get. destruct (nth_error (a_active a) (N.to_nat k)) as [b|] eqn:E.
    + exists b. split; auto. split; [intros ->; auto|]. intros [_ Q]. congruence.
    + apply nth_error_None in E. rewrite (iv_act _ I) in E. lia.
Qed.

Lemma all_ok a ok ks : AInv a -> exists b, all_active_ok a ok ks = Ok b /\
  (b = true <-> forall k, In k ks -> (k < p_numRobots (a_params a))%N -> nth_error (a_active a) (N.to_nat k) = Some true ->
     exists s, mfind N.ltb k (a_team a) = Some s /\ ok s = true).
Proof.
  intros I. induction ks as [|k ks IH]; cbn [all_active_ok].
  - exists true. split; auto. split; auto. intros _ k [].
  - destruct (isActive_ok a k I) as (act & Ea & Ha). rewrite Ea. cbn [bind]. destruct IH as (b & Eb & Hb).
    destruct act; cbn [negb].
    + destruct Ha as [Ha _]. destruct (Ha eq_refl) as [H1 H2].
      destruct (mfind N.ltb k (a_team a)) as [s|] eqn:F.
      * rewrite (proj2 (iv_team _ I) _ _ F), N.eqb_refl. cbn [check]. destruct (ok s) eqn:Ho.
        -- exists b. split; auto. rewrite Hb. split.
           ++ intros Q k' [<-|Hk]; eauto.
           ++ intros Q k' Hk. apply Q. cbn; auto.
        -- exists false. split; auto. split; [discriminate|]. intros Q. destruct (Q k (or_introl eq_refl) H1 H2) as (s' & E1 & E2). congruence.
      * exists false. split; auto. split; [discriminate|]. intros Q. destruct (Q k (or_introl eq_refl) H1 H2) as (s' & E1 & E2). congruence.
    + exists b. split; auto. rewrite Hb. split.
      * intros Q k' [<-|Hk] H1 H2; [|eauto]. destruct Ha as [_ Ha]. specialize (Ha (conj H1 H2)). discriminate.
      * intros Q k' Hk. apply Q. cbn; auto.
Qed.

Lemma robot_ids_In a k : In k (robot_ids a) <-> (k < p_numRobots (a_params a))%N.
Proof.
  unfold robot_ids. rewrite in_map_iff. split.
  - intros (i & <- & Hi). apply in_seq in Hi. lia.
  - intros Hk. exists (N.to_nat k). split; [lia|]. apply in_seq. lia.
Qed.

Lemma robust_iff a : robust a = true <-> costType (p_robust (a_params a)) <> L2.
Proof.
  unfold robust. destruct (costType (p_robust (a_params a))); cbn; split; intros; try discriminate; auto; congruence.
Qed.

Definition team_ok a (ok : Status S -> Prop) : Prop :=
  forall k, (k < p_numRobots (a_params a))%N -> nth_error (a_active a) (N.to_nat k) = Some true ->
    exists s, mfind N.ltb k (a_team a) = Some s /\ ok s.

Lemma term_state a : AInv a -> exists b, ag_shouldTerminate a = Ok b /\
  (b = true <-> (p_maxit (a_params a) <= a_iter a)%N \/
    ((costType (p_robust (a_params a)) = L2 \/ (p_nwu (a_params a) <= a_wuc a)%Z) /\
     team_ok a (fun s => st_state s = INITIALIZED /\ st_ready s = true))).
Proof.
  intros I. unfold ag_shouldTerminate. destruct (p_maxit (a_params a) <=? a_iter a)%N eqn:M.
  - apply N.leb_le in M. exists true. split; auto. split; auto.
  - apply N.leb_gt in M. destruct (robust a && (a_wuc a <? p_nwu (a_params a))%Z) eqn:R.
    + apply andb_true_iff in R. destruct R as [R1 R2]. apply robust_iff in R1. apply Z.ltb_lt in R2.
      exists false. split; auto. split; [discriminate|]. intros [?|([?|?] & _)]; [lia|congruence|lia].
    + assert (R' : costType (p_robust (a_params a)) = L2 \/ (p_nwu (a_params a) <= a_wuc a)%Z).
      { apply andb_false_iff in R. destruct R as [R|R].
        - left. destruct (costType (p_robust (a_params a))) eqn:C; auto; unfold robust in R; rewrite C in R; discriminate.
        - right. apply Z.ltb_ge in R. auto. }
      destruct (all_ok a (fun s => state_eqb (st_state s) INITIALIZED && st_ready s) (robot_ids a) I) as (b & E & Hb).
      exists b. split; auto. rewrite Hb. unfold team_ok. split.
      * intros Q. right. split; auto. intros k H1 H2. destruct (Q k (proj2 (robot_ids_In a k) H1) H1 H2) as (s & E1 & E2).
        apply andb_true_iff in E2. rewrite state_eqb_eq in E2. eauto.
      * intros [?|(_ & Q)]; [lia|]. intros k _ H1 H2. destruct (Q k H1 H2) as (s & E1 & E2). exists s. split; auto.
        apply andb_true_iff. rewrite state_eqb_eq. auto.
Qed.

Lemma upd_state a : AInv a -> exists b, ag_shouldUpdateMeasurementWeights a = Ok b /\
  (b = true <-> costType (p_robust (a_params a)) <> L2 /\ (a_wuc a < p_nwu (a_params a))%Z /\
    ((p_innerIters (a_params a) <= a_inner a)%Z \/
     team_ok a (fun s => (a_lwu a <= st_iter s)%N /\ st_state s = INITIALIZED /\ st_ready s = true))).
Proof.
  intros I. unfold ag_shouldUpdateMeasurementWeights.
  destruct (robust a) eqn:R; cbn [negb].
  2:{ exists false. split; auto. split; [discriminate|]. intros (H & _). apply robust_iff in H. congruence. }
  apply robust_iff in R.
  destruct (p_nwu (a_params a) <=? a_wuc a)%Z eqn:L.
  { apply Z.leb_le in L. exists false. split; auto. split; [discriminate|]. lia. }
  apply Z.leb_gt in L. destruct (p_innerIters (a_params a) <=? a_inner a)%Z eqn:J.
  { apply Z.leb_le in J. exists true. split; auto. split; auto. }
  apply Z.leb_gt in J.
  destruct (all_ok a (fun s => negb (st_iter s <? a_lwu a)%N && state_eqb (st_state s) INITIALIZED && st_ready s) (robot_ids a) I) as (b & E & Hb).
  exists b. split; auto. rewrite Hb. unfold team_ok. split.
  - intros Q. split; auto. split; auto. right. intros k H1 H2. destruct (Q k (proj2 (robot_ids_In a k) H1) H1 H2) as (s & E1 & E2).
    rewrite !andb_true_iff, state_eqb_eq, negb_true_iff, N.ltb_ge in E2. exists s. tauto.
  - intros (_ & _ & [?|Q]); [lia|]. intros k _ H1 H2. destruct (Q k H1 H2) as (s & E1 & E2). exists s. split; auto.
    rewrite !andb_true_iff, state_eqb_eq, negb_true_iff, N.ltb_ge. tauto.
Qed.

Lemma team_hist x id p os a (ok : Status S -> Prop) : areach x id p os a ->
  let es := history x id p os in
  (team_ok a ok <-> forall k, (k < p_numRobots p)%N -> active_now k es = true ->
     exists s, last_some (status_of k) (since is_reweight (since is_reset es)) = Some s /\ ok s).
Proof.
  intros R es. destruct (hist_all _ _ _ _ _ R) as (H1 & H2 & H3 & H4 & H5 & H6 & H7 & H8 & H9). fold es in H8, H9.
  unfold team_ok. rewrite H2. split; intros Q k Hk Hact.
  - rewrite <- H8. apply Q; auto. rewrite (H9 k Hk), Hact. reflexivity.
  - rewrite H8. apply Q; auto. rewrite (H9 k Hk) in Hact. congruence.
Qed.

Lemma term_hist x id p os a : areach x id p os a ->
  let es := history x id p os in
  exists b, ag_shouldTerminate a = Ok b /\
  (b = true <-> (p_maxit p <= u32 (SpecAgent.count is_iter (since is_reset es)))%N \/
    ((costType (p_robust p) = L2 \/ (p_nwu p <= Z.of_N (SpecAgent.count is_reweight (since is_reset es)))%Z) /\
     forall k, (k < p_numRobots p)%N -> active_now k es = true ->
       exists s, last_some (status_of k) (since is_reweight (since is_reset es)) = Some s /\
         st_state s = INITIALIZED /\ st_ready s = true)).
Proof.
  intros R es. destruct (term_state a (areach_inv _ _ _ _ _ R)) as (b & E & Hb). exists b. split; auto.
  destruct (hist_all _ _ _ _ _ R) as (H1 & H2 & H3 & H4 & H5 & H6 & H7 & H8 & H9).
  rewrite Hb, (team_hist _ _ _ _ _ _ R), H2, H4, H5. reflexivity.
Qed.

Lemma upd_hist x id p os a : areach x id p os a ->
  let es := history x id p os in
  exists b, ag_shouldUpdateMeasurementWeights a = Ok b /\
  (b = true <-> costType (p_robust p) <> L2 /\ (Z.of_N (SpecAgent.count is_reweight (since is_reset es)) < p_nwu p)%Z /\
    ((p_innerIters p <= Z.of_N (SpecAgent.count is_iter (since is_reweight (since is_reset es))))%Z \/
     forall k, (k < p_numRobots p)%N -> active_now k es = true ->
       exists s, last_some (status_of k) (since is_reweight (since is_reset es)) = Some s /\
         (u32 (SpecAgent.count is_iter (upto is_reweight (since is_reset es))) <= st_iter s)%N /\
         st_state s = INITIALIZED /\ st_ready s = true)).
Proof.
  intros R es. destruct (upd_state a (areach_inv _ _ _ _ _ R)) as (b & E & Hb). exists b. split; auto.
  destruct (hist_all _ _ _ _ _ R) as (H1 & H2 & H3 & H4 & H5 & H6 & H7 & H8 & H9).
  rewrite Hb, (team_hist _ _ _ _ _ _ R), H2, H5, H6, H7.
  destruct (robust a) eqn:Rb.
  - reflexivity.
  - assert (C : ~ costType (p_robust p) <> L2).
    { intros C. rewrite <- H2 in C. apply robust_iff in C. congruence. }
    tauto.
Qed.

(** *** Neighbour poses *)
Lemma delivers_fun e p v w : delivers e p v -> delivers e p w -> v = w.
Proof. unfold delivers. destruct (e_op e); try tauto. intros (_ & _ & _ & A) (_ & _ & _ & B). congruence. Qed.
Lemma delivers_aux_fun e p v w : delivers_aux e p v -> delivers_aux e p w -> v = w.
Proof. unfold delivers_aux. destruct (e_op e); try tauto. intros (_ & _ & _ & A) (_ & _ & _ & B). congruence. Qed.

Lemma touches_npub a p : AInv a -> (touches a p <-> requireNeighborPose (a_pg a) p = true).
Proof.
  intros I. rewrite (require_npub _ _ (iv_pg _ I)), (wf_npub _ (iv_pg _ I)), (iv_id _ I). reflexivity.
Qed.
Lemma nbr_ready_iff a k : nbr_ready a k = true <-> receivable a k.
Proof.
  unfold nbr_ready, receivable. destruct (a_YLift a); [|split; [discriminate|intros [[] _]; auto]].
  destruct (mfind N.ltb k (a_team a)) as [s|].
  - rewrite state_eqb_eq. split; [intros Q; split; [discriminate|eauto]|]. intros (_ & s' & E & Q). congruence.
  - split; [discriminate|]. intros (_ & s' & E & Q). discriminate.
Qed.

Definition cache_step e (new old : list (PoseID * Mx S)) (del : PoseID -> Mx S -> Prop) : Prop :=
  forall p, (exists v, del p v /\ mfind pose_ltb p new = Some v) \/
    ((forall v, ~ del p v) /\ wipes e p /\ mfind pose_ltb p new = None) \/
    ((forall v, ~ del p v) /\ ~ wipes e p /\ mfind pose_ltb p new = mfind pose_ltb p old).

Lemma cache_same e new old del : (forall p v, ~ del p v) -> (forall p, ~ wipes e p) -> new = old -> cache_step e new old del.
Proof. intros H1 H2 -> p. right; right. auto. Qed.
Lemma cache_wiped e new old del : (forall p v, ~ del p v) -> (forall p, wipes e p) -> new = [] -> cache_step e new old del.
Proof. intros H1 H2 -> p. right; left. auto. Qed.

Lemma init_nd a : AInv a -> a_state a <> INITIALIZED -> a_ndict a = [] /\ a_naux a = [].
Proof. intros I. apply I. Qed.

Lemma sorted_store a k dict c c' p : AInv a -> msorted pose_ltb dict -> store_poses a k dict c = Ok c' ->
  mfind pose_ltb p c' = match mfind pose_ltb p dict with
     | Some v => if requireNeighborPose (a_pg a) p then Some v else mfind pose_ltb p c
     | None => mfind pose_ltb p c end.
Proof. intros I Hd E. apply (store_poses_spec _ _ _ _ _ E); auto. Qed.

Lemma step_cache x a o a' : AInv a -> aop_ok o -> ag_step x a o = Ok a' ->
  let e := mkEv a o a' in
  cache_step e (a_ndict a') (a_ndict a) (delivers e) /\ cache_step e (a_naux a') (a_naux a) (delivers_aux e).
Proof.
  intros I Ho E e. assert (I' := step_inv _ _ _ _ I Ho E).
  assert (SAME : a_ndict a' = a_ndict a -> a_naux a' = a_naux a -> (forall p v, ~ delivers e p v) ->
     (forall p v, ~ delivers_aux e p v) -> (forall p, ~ wipes e p) ->
     cache_step e (a_ndict a') (a_ndict a) (delivers e) /\ cache_step e (a_naux a') (a_naux a) (delivers_aux e)).
  { intros; split; apply cache_same; auto. }
  destruct o; cbn [ag_step aop_ok] in *; try (apply SAME; [| |exact (fun _ _ q => q)|exact (fun _ _ q => q)|exact (fun _ q => q)]; clear SAME).
  - pose proof (setX_form _ _ _ E). tauto.
  - pose proof (setX_form _ _ _ E). tauto.
  - destruct (setXInit_form _ _ E) as (X1 & _ & -> & _). reflexivity.
  - destruct (setXInit_form _ _ E) as (X1 & _ & -> & _). reflexivity.
  - destruct (addA_form _ _ _ E) as [[_ ->]|(_ & g & _ & ->)]; reflexivity.
  - destruct (addA_form _ _ _ E) as [[_ ->]|(_ & g & _ & ->)]; reflexivity.
  - destruct (setMeasA_form _ _ _ _ _ E) as (_ & [[_ ->]|(_ & g0 & g & _ & _ & ->)]); reflexivity.
  - destruct (setMeasA_form _ _ _ _ _ E) as (_ & [[_ ->]|(_ & g0 & g & _ & _ & ->)]); reflexivity.
  - destruct (initialize_cases _ _ _ _ _ E I) as [->|[[-> _]|Q]]; try reflexivity.
    destruct Q as (Hs & _ & _ & _ & a0 & T0 & T1 & a1 & W & F0 & _ & _ & _ & _ & _ & _ & (X & F1) & Q).
    rewrite (proj1 (init_nd _ I ltac:(congruence))).
    destruct Q as [(b & ->)|(J & a2 & b & _ & E2 & ->)].
    + cbn. rewrite F1, F0. cbn. apply (init_nd _ I); congruence.
    + cbn. pose proof (initGlobal_form _ _ _ E2) as F2. tauto.
  - destruct (initialize_cases _ _ _ _ _ E I) as [->|[[-> _]|Q]]; try reflexivity.
    destruct Q as (Hs & _ & _ & _ & a0 & T0 & T1 & a1 & W & F0 & _ & _ & _ & _ & _ & _ & (X & F1) & Q).
    rewrite (proj2 (init_nd _ I ltac:(congruence))).
    destruct Q as [(b & ->)|(J & a2 & b & _ & E2 & ->)].
    + cbn. rewrite F1, F0. cbn. apply (init_nd _ I); congruence.
    + cbn. pose proof (initGlobal_form _ _ _ E2) as F2. tauto.
  - clear SAME. pose proof (initGlobal_form _ _ _ E) as F2. split; apply cache_wiped; cbn; tauto.
  - dres E. okinv E. destruct (iterate_all _ _ _ _ _ _ E0 I) as (_ & F & E1 & E2). unfold iter_frame in F. tauto.
  - dres E. okinv E. destruct (iterate_all _ _ _ _ _ _ E0 I) as (_ & F & E1 & E2). unfold iter_frame in F. tauto.
  - destruct (a_thread a) eqn:Et.
    + dres E. okinv E. destruct (iterate_all _ _ _ _ _ _ E0 I) as (_ & F & E1 & E2). unfold iter_frame in F. tauto.
    + injection E as <-. reflexivity.
  - destruct (a_thread a) eqn:Et.
    + dres E. okinv E. destruct (iterate_all _ _ _ _ _ _ E0 I) as (_ & F & E1 & E2). unfold iter_frame in F. tauto.
    + injection E as <-. reflexivity.
  - clear SAME. apply reset_form in E. split; apply cache_wiped; subst a'; cbn; tauto.
  - apply startLoop_form in E. destruct E as [-> _]. reflexivity.
  - apply startLoop_form in E. destruct E as [-> _]. reflexivity.
  - injection E as <-. rewrite endLoop_form. reflexivity.
  - injection E as <-. rewrite endLoop_form. reflexivity.
  - destruct (restart_frame _ _ _ _ E I) as (F & E1 & E2). unfold iter_frame in F. tauto.
  - destruct (restart_frame _ _ _ _ E I) as (F & E1 & E2). unfold iter_frame in F. tauto.
  - clear SAME. destruct (updNbr_form _ _ _ _ _ E I) as (_ & [[Hr ->]|(Hr & a1 & I1 & R & _ & Q)]).
    + split; apply cache_same; auto; cbn; try tauto.
      intros p v (A & _). apply nbr_ready_iff in A. congruence.
    + assert (Hpg : gsame (a_pg a) (a_pg a1) /\ a_ndict a1 = a_ndict a /\ a_naux a1 = a_naux a).
      { destruct R as [->|(Hs & T & _ & ET)]; [split; auto; apply gsame_refl, I|].
        pose proof (initGlobal_form _ _ _ ET) as F2. decompose [and] F2. split; [apply weq_gsame; auto; apply I|].
        destruct (init_nd _ I ltac:(congruence)) as [-> ->]. auto. }
      destruct Hpg as (G & N1 & N2).
      destruct Q as [[Hi ->]|(Hi & c & Ec & ->)].
      * split; apply cache_same; auto; cbn; try tauto.
        intros p v (_ & A & _). apply is_init_neq in Hi. congruence.
      * cbn [a_ndict a_naux sa_ndict]. rewrite N1 in Ec. split; [|apply cache_same; auto; cbn; tauto].
        intros p. pose proof (sorted_store _ _ _ _ _ p I1 Ho Ec) as F.
        assert (Hq : requireNeighborPose (a_pg a1) p = requireNeighborPose (a_pg a) p) by (unfold requireNeighborPose; rewrite (gs_npub _ _ G); auto).
        rewrite Hq in F. apply is_init_eq in Hi.
        destruct (mfind pose_ltb p dict) as [v|] eqn:Fd; [destruct (requireNeighborPose (a_pg a) p) eqn:Rq|].
        -- left. exists v. split; auto. cbn. apply (touches_npub a p I) in Rq. apply nbr_ready_iff in Hr. auto.
        -- right; right. cbn. split; [|split; [tauto|exact F]]. intros w (_ & _ & A & _).
           apply (touches_npub a p I) in A. congruence.
        -- right; right. cbn. split; [|split; [tauto|exact F]]. intros w (_ & _ & _ & A). congruence.
  - clear SAME. destruct (updAux_form _ _ _ _ E) as (_ & _ & [[Hr ->]|(Hr & c & Ec & ->)]).
    + split; apply cache_same; auto; cbn; try tauto.
      intros p v (A & B & _). apply nbr_ready_iff in A. apply is_init_eq in B. rewrite A, B in Hr. discriminate.
    + apply andb_true_iff in Hr. destruct Hr as [Hr Hi]. apply is_init_eq in Hi.
      cbn [a_ndict a_naux sa_naux]. split; [apply cache_same; auto; cbn; tauto|].
      intros p. pose proof (sorted_store _ _ _ _ _ p I Ho Ec) as F.
      destruct (mfind pose_ltb p dict) as [v|] eqn:Fd; [destruct (requireNeighborPose (a_pg a) p) eqn:Rq|].
      * left. exists v. split; auto. cbn. apply (touches_npub a p I) in Rq. apply nbr_ready_iff in Hr. auto.
      * right; right. cbn. split; [|split; [tauto|exact F]]. intros w (_ & _ & A & _).
        apply (touches_npub a p I) in A. congruence.
      * right; right. cbn. split; [|split; [tauto|exact F]]. intros w (_ & _ & _ & A). congruence.
  - clear SAME. injection E as <-. split; apply cache_wiped; cbn; tauto.
  - clear SAME. unfold ag_clearActiveNeighborPoses in E. dres E. okinv E.
    assert (Q : y = filter (fun p => act (a_pg a) (robot_id p)) (pg_npub (a_pg a))).
    { unfold activeNeighborPublicPoseIDs in E0. rewrite (filterM_pure _ (fun p => act (a_pg a) (robot_id p))) in E0; [congruence|].
      intros p _. unfold act. destruct (isActive_total (a_pg a) (robot_id p) (iv_pg _ I)) as (b & -> & _). reflexivity. }
    assert (Hact : forall p, existsb (poseid_eqb p) y = true <-> In p (pg_npub (a_pg a)) /\ isNeighborActive (a_pg a) (robot_id p) = Ok true).
    { intros p. rewrite existsb_exists. rewrite Q. split.
      - intros (q & Hq & Eq). apply poseid_eqb_eq in Eq. subst q. apply filter_In in Hq. destruct Hq as [H1 H2].
        split; auto. unfold act in H2. destruct (isNeighborActive (a_pg a) (robot_id p)) as [[]| |]; auto; discriminate.
      - intros [H1 H2]. exists p. split; [|apply poseid_eqb_eq; auto]. apply filter_In. split; auto. unfold act. rewrite H2. reflexivity. }
    clear E0 Q.
    assert (HC : forall old : list (PoseID * Mx S), (msorted pose_ltb old /\ forall p v, mfind pose_ltb p old = Some v -> In p (pg_npub (a_pg a)) /\ mrows v = p_r (a_params a) /\ mcols v = (p_d (a_params a) + 1)%nat) ->
       forall p, (wipes e p /\ mfind pose_ltb p (fold_left (fun m p0 => merase pose_ltb p0 m) y old) = None) \/
         (~ wipes e p /\ mfind pose_ltb p (fold_left (fun m p0 => merase pose_ltb p0 m) y old) = mfind pose_ltb p old)).
    { intros old [Hs Hin] p. destruct (fold_merase y _ Hs) as [_ F]. rewrite F. cbn.
      destruct (existsb (poseid_eqb p) y) eqn:Ex.
      - left. apply Hact in Ex. tauto.
      - destruct (isActive_total (a_pg a) (robot_id p) (iv_pg _ I)) as (b & Eb & _). destruct b.
        + left. split; auto. destruct (mfind pose_ltb p old) as [v|] eqn:Fo; auto. destruct (Hin _ _ Fo) as [Hp _].
          assert (existsb (poseid_eqb p) y = true) by (apply Hact; auto). congruence.
        + right. split; auto. rewrite Eb. congruence. }
    cbn [a_ndict a_naux sa_naux sa_ndict].
    split; intros p; right; [destruct (HC _ (iv_nd _ I) p) as [[H1 H2]|[H1 H2]]|destruct (HC _ (iv_na _ I) p) as [[H1 H2]|[H1 H2]]];
      [left|right|left|right]; (split; [exact (fun _ q => q)|auto]).
  - unfold ag_setLiftingMatrix in E. dres E. okinv E. reflexivity.
  - unfold ag_setLiftingMatrix in E. dres E. okinv E. reflexivity.
  - unfold ag_setGlobalAnchor in E. dres E. okinv E. reflexivity.
  - unfold ag_setGlobalAnchor in E. dres E. okinv E. reflexivity.
  - injection E as <-. reflexivity.
  - injection E as <-. reflexivity.
  - injection E as <-. reflexivity.
  - injection E as <-. reflexivity.
  - destruct (setActive_form _ _ _ _ I E) as [[L ->]|(L & -> & _)]; reflexivity.
  - destruct (setActive_form _ _ _ _ I E) as [[L ->]|(L & -> & _)]; reflexivity.
  - destruct (updWeights_cases _ _ E I) as [[Hi ->]|(Hi & ps & a1 & Q)].
    + apply is_init_neq in Hi. split; apply cache_same; auto; cbn; tauto.
    + apply is_init_eq in Hi. decompose [and] Q. clear Q SAME.
      match goal with H : if _ then _ else _ |- _ => rename H into HT end.
      destruct (a_trc a <? p_nreset (a_params a))%Z eqn:L.
      * apply Z.ltb_lt in L. split; apply cache_wiped; cbn; tauto.
      * apply Z.ltb_ge in L. split; apply cache_same; cbn; try tauto; intros; lia.
  - dres E. okinv E. apply setWeight_form in E0. destruct E0 as [-> _]. reflexivity.
  - dres E. okinv E. apply setWeight_form in E0. destruct E0 as [-> _]. reflexivity.
  - apply initRobust_form in E. destruct E as [-> _]. reflexivity.
  - apply initRobust_form in E. destruct E as [-> _]. reflexivity.
  - dres E. okinv E. destruct (anchorFirst_form _ _ _ E0 I) as [-> _]. reflexivity.
  - dres E. okinv E. destruct (anchorFirst_form _ _ _ E0 I) as [-> _]. reflexivity.
  - dres E. okinv E. destruct (anchorWith_form _ _ _ _ E0 I) as [-> _]. reflexivity.
  - dres E. okinv E. destruct (anchorWith_form _ _ _ _ E0 I) as [-> _]. reflexivity.
Qed.

Lemma last_delivery_step (del : event S -> PoseID -> Mx S -> Prop) (es : list (event S)) e p v new old :
  (forall u w, del e p u -> del e p w -> u = w) ->
  cache_step e new old (del e) ->
  (mfind pose_ltb p old = Some v <-> last_delivery del es p v) ->
  (mfind pose_ltb p new = Some v <-> last_delivery del (es ++ [e]) p v).
Proof.
  intros Hfun Hc IH.
  assert (SPL : forall es1 (e0 : event S) es2, es ++ [e] = es1 ++ e0 :: es2 ->
     es2 = [] /\ e0 = e /\ es1 = es \/ exists es2', es2 = es2' ++ [e] /\ es = es1 ++ e0 :: es2').
  { intros es1 e0 es2 Eq. destruct es2 as [|z l] using rev_ind.
    - apply app_inj_tail in Eq. destruct Eq; auto.
    - clear IHl. right. exists l. rewrite app_comm_cons, app_assoc in Eq. apply app_inj_tail in Eq. destruct Eq as [E1 E2]. subst z. auto. }
  destruct (Hc p) as [(w & Hd & Hn)|[(Hnd & Hw & Hn)|(Hnd & Hw & Hn)]]; rewrite Hn.
  - split.
    + intros Q; injection Q as <-. exists es, e, []. split; auto.
    + intros (es1 & e0 & es2 & Eq & D & Hl). destruct (SPL _ _ _ Eq) as [(-> & -> & ->)|(es2' & -> & _)].
      * f_equal. eapply Hfun; eauto.
      * destruct (Hl e) as [_ Q]; [apply in_app_iff; cbn; auto|]. exfalso. eapply Q; eauto.
  - split; [discriminate|]. intros (es1 & e0 & es2 & Eq & D & Hl). destruct (SPL _ _ _ Eq) as [(-> & -> & ->)|(es2' & -> & _)].
    + exfalso. eapply Hnd; eauto.
    + destruct (Hl e) as [Q _]; [apply in_app_iff; cbn; auto|]. contradiction.
  - rewrite IH. split.
    + intros (es1 & e0 & es2 & -> & D & Hl). exists es1, e0, (es2 ++ [e]). split; [rewrite <- app_assoc; reflexivity|].
      split; auto. intros e' Hin. apply in_app_iff in Hin. destruct Hin as [Hin|[<-|[]]]; auto.
    + intros (es1 & e0 & es2 & Eq & D & Hl). destruct (SPL _ _ _ Eq) as [(-> & -> & ->)|(es2' & -> & ->)].
      * exfalso. eapply Hnd; eauto.
      * exists es1, e0, es2'. split; auto. split; auto. intros e' Hin. apply Hl. apply in_app_iff; auto.
Qed.

Lemma cache_hist x id p os a : areach x id p os a -> forall q v,
  (mfind pose_ltb q (a_ndict a) = Some v <-> last_delivery delivers (history x id p os) q v) /\
  (mfind pose_ltb q (a_naux a) = Some v <-> last_delivery delivers_aux (history x id p os) q v).
Proof.
  revert os a. apply (hist_ind x id p (fun es a => forall q v,
    (mfind pose_ltb q (a_ndict a) = Some v <-> last_delivery delivers es q v) /\
    (mfind pose_ltb q (a_naux a) = Some v <-> last_delivery delivers_aux es q v))).
  - intros a E q v. destruct (new_form _ _ _ _ E) as (X & g & YL & EX & Eg & -> & _). cbn.
    split; (split; [discriminate|]); intros (es1 & e0 & es2 & Eq & _); destruct es1; discriminate.
  - intros os a o a' R I Ho E IH q v. destruct (step_cache _ _ _ _ I Ho E) as [C1 C2]. split.
    + eapply last_delivery_step; [|exact C1|apply IH]. intros; eapply delivers_fun; eauto.
    + eapply last_delivery_step; [|exact C2|apply IH]. intros; eapply delivers_aux_fun; eauto.
Qed.

(** A message with a pose of another robot aborts (once it is examined at all). *)
Lemma store_wrong a k dict c kv : In kv dict -> robot_id (fst kv) <> k -> forall c', store_poses a k dict c <> Ok c'.
Proof.
  intros Hin Hne c' E. destruct (store_poses_spec _ _ _ _ _ E) as (D1 & _). destruct (D1 _ Hin) as (A & _). contradiction.
Qed.

End A.
