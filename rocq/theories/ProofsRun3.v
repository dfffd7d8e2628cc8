(** The multi-robot example's loop: the team and the exchange of poses. *)
From Coq Require Import List NArith ZArith Bool Arith Lia Lra Reals.
From Verif Require Import Base SMap Num RSum ModelTypes ModelPoseGraph ModelProblem ModelRobust ModelPoses ModelSolver ModelAgent ModelExample ModelExampleRun
  ModelOptimizer SpecPoseGraph SpecPGHist SpecCost SpecAgent SpecExample SpecOptimizer SpecRun ProofsPoseGraph ProofsPGHist ProofsPGData ProofsCost ProofsCost2 ProofsCost4 ProofsExample ProofsExample2
  ProofsOptimizer ProofsAgent ProofsAgent2 ProofsAgent3 ProofsAgent4 ProofsAgent5 ProofsRun ProofsRun2.
Import ListNotations.
Local Open Scope res_scope.
Implicit Types (g : PoseGraph R) (a : Agent R).

Lemma mapM_nth {A B} (f : A -> res B) l l' : mapM f l = Ok l' -> length l' = length l /\
  forall k u, nth_error l k = Some u -> exists v, nth_error l' k = Some v /\ f u = Ok v.
Proof.
  intros E. apply mapM_Forall2 in E. induction E as [|u v l l' H F [IH1 IH2]]; [split; auto; intros [|k] u; discriminate|].
  split; [cbn; congruence|]. intros [|k] w Hw; cbn in *; [injection Hw as <-; eauto|apply IH2; auto].
Qed.
Lemma nth_back {A B} (l : list A) (l' : list B) k v : length l' = length l -> nth_error l' k = Some v -> exists u, nth_error l k = Some u.
Proof.
  intros HL Hv. assert (k < length l')%nat by (apply nth_error_Some; congruence).
  destruct (nth_error l k) eqn:E; [eauto|]. apply nth_error_None in E. lia.
Qed.

Section T.
Context (x : Ext R) (d r : nat) (m : N) (P : AgentParams R) (G : N -> PoseGraph R).
Hypothesis (HPd : p_d P = d) (HPr : p_r P = r) (HPc : costType (p_robust P) = L2) (HPs : p_restart P <> 0%N) (SV : svd_sized x r d).
Hypothesis (HB : forall k, (k < m)%N -> base (G k)) (HG : forall k, (k < m)%N -> pg_id (G k) = k /\ pg_wf (G k)).
Hypothesis (HC : forall k e, (k < m)%N -> In e (pg_shared (G k)) -> let q := other_pose k e in
  (robot_id q < m)%N /\ robot_id q <> k /\ exists e', In e' (pg_shared (G (robot_id q))) /\ own_pose (robot_id q) e' = q).

(** A robot of the team in iteration [it]. *)
Record Mem (it k : N) (a : Agent R) : Prop := {
  mm_inv : AInv a; mm_id : a_id a = k; mm_P : a_params a = P; mm_st : a_state a = INITIALIZED; mm_inst : a_inst a = 0%N;
  mm_it : a_iter a = it; mm_Y : a_YLift a <> None; mm_th : a_thread a = false; mm_pg : like (G k) (a_pg a) }.

Lemma mem_arr it k a : Mem it k a -> arr r d (num_poses a) (a_X a) /\ (p_accel P = true -> arr r d (num_poses a) (a_Y a)) /\ num_poses a = N.to_nat (pg_n (G k)).
Proof.
  intros M. destruct M. destruct (iv_X _ mm_inv0 ltac:(congruence)) as [_ AX]. rewrite mm_P0, HPr, HPd in AX. split; auto. split.
  - intros Ha. pose proof (iv_acc _ mm_inv0) as Q. rewrite mm_P0, HPr, HPd in Q. apply (Q Ha mm_st0).
  - unfold num_poses. destruct (like_fields _ _ mm_pg0) as (_ & _ & _ & _ & _ & E & _). congruence.
Qed.

Lemma mem_iterate it k a opt b : (k < m)%N -> Mem it k a -> opt_sized opt ->
  (b = true -> full (G k) (a_ndict a)) -> (b = true -> p_accel P = true -> full (G k) (a_naux a)) ->
  exists a', ag_iterate x opt a b = Ok (a', true) /\ Mem (u32 (it + 1)) k a' /\
    (p_accel P = false -> b = false -> a_X a' = a_X a) /\
    (p_accel P = false -> b = true -> exists g, like (G k) g /\ pg_nposes g = a_ndict a /\ pa_X (a_X a') = snd (opt g (pa_X (a_X a)))).
Proof.
  intros Hk M SO F1 F2. pose proof M as M0. destruct M0.
  destruct (iterate_total x opt a b (G k) mm_inv0 mm_st0 (HB k Hk) mm_pg0 SO) as (a' & E & L & K1 & K2); rewrite ?mm_P0 in *; auto.
  { unfold robust. rewrite mm_P0, HPc. reflexivity. } { rewrite HPr, HPd. exact SV. }
  exists a'. split; [exact E|]. split; [|split; auto].
  destruct (iterate_all x opt a b a' true E mm_inv0) as (I' & Fr & It & _).
  destruct Fr as (Q1 & Q2 & Q3 & _ & Q5 & _ & _ & _ & _ & _ & _ & _ & Q13 & _ & _ & _ & Q17 & _).
  constructor; try congruence; auto.
Qed.

Definition team (f : N -> N) (ags : list (Agent R)) : Prop :=
  length ags = N.to_nat m /\ forall k a, nth_error ags (N.to_nat k) = Some a -> Mem (f k) k a.
Lemma team_at f ags k : team f ags -> (k < m)%N -> exists a, nth_error ags (N.to_nat k) = Some a /\ at_ ags k = Ok a /\ Mem (f k) k a.
Proof.
  intros [L T] Hk. destruct (nth_error ags (N.to_nat k)) as [a|] eqn:E.
  - exists a. unfold at_. rewrite E. auto.
  - apply nth_error_None in E. lia.
Qed.
Lemma nth_put ags k j a : nth_error (put ags k a) (N.to_nat j) =
  if (k =? j)%N then option_map (fun _ => a) (nth_error ags (N.to_nat j)) else nth_error ags (N.to_nat j).
Proof.
  unfold put. rewrite list_update_nth. destruct (N.eqb_spec k j) as [->|Hn]; [rewrite Nat.eqb_refl; reflexivity|].
  destruct (Nat.eqb_spec (N.to_nat k) (N.to_nat j)) as [E|_]; [lia|reflexivity].
Qed.
Lemma len_put ags k a : length (put ags k a) = length ags. Proof. apply list_update_length. Qed.
Lemma team_put f ags k a : team f ags -> Mem (f k) k a -> team f (put ags k a).
Proof.
  intros [L T] M. split; [rewrite len_put; auto|]. intros j b. rewrite nth_put. destruct (N.eqb_spec k j) as [->|Hn]; auto.
  destruct (nth_error ags (N.to_nat j)) eqn:E; cbn; [|discriminate]. intros [= <-]. exact M.
Qed.
Lemma team_lt f ags k a : team f ags -> nth_error ags (N.to_nat k) = Some a -> (k < m)%N.
Proof. intros [L _] E. assert (N.to_nat k < length ags)%nat by (apply nth_error_Some; congruence). lia. Qed.

(** ** The others' turn *)
Lemma others_total opt it sel ags : (sel < m)%N -> (forall i, opt_sized (opt i)) -> team (fun _ => it) ags ->
  exists ags', ex_others x opt it sel ags = Ok ags' /\ team (fun k => if (k =? sel)%N then it else u32 (it + 1)) ags' /\
    nth_error ags' (N.to_nat sel) = nth_error ags (N.to_nat sel) /\
    (p_accel P = false -> forall k a a', nth_error ags (N.to_nat k) = Some a -> nth_error ags' (N.to_nat k) = Some a' -> a_X a' = a_X a).
Proof.
  intros Hsel SO T. pose proof T as [L TM]. unfold ex_others.
  set (f := fun a : Agent R => check (a_inst a =? 0)%N (check (a_iter a =? it)%N (if negb (a_id a =? sel)%N then do '(a0, _) <- ag_iterate x (opt it) a false; Ok a0 else Ok a))).
  assert (Each : forall k a, nth_error ags (N.to_nat k) = Some a -> exists a', f a = Ok a' /\ Mem (if (k =? sel)%N then it else u32 (it + 1)) k a' /\
     (k = sel -> a' = a) /\ (p_accel P = false -> a_X a' = a_X a)).
  { intros k a E. pose proof (TM k a E) as M. pose proof (team_lt _ _ _ _ T E) as Hk. unfold f. rewrite (mm_inst _ _ _ M), (mm_it _ _ _ M), !N.eqb_refl. cbn [check].
    rewrite (mm_id _ _ _ M). destruct (N.eqb_spec k sel) as [->|Hn]; cbn [negb].
    - exists a. split; [reflexivity|]. split; [exact M|]. auto.
    - destruct (mem_iterate it k a (opt it) false Hk M (SO it)) as (a' & -> & M' & K & _); try discriminate. cbn [bind].
      exists a'. split; auto. split; auto. split; [congruence|auto]. }
  destruct (mapM_total f ags) as (ags' & E).
  { intros a Hin. apply In_nth_error in Hin. destruct Hin as (k & E). destruct (Each (N.of_nat k) a) as (a' & Ea & _); [rewrite Nat2N.id; auto|eauto]. }
  exists ags'. split; [exact E|]. destruct (mapM_nth f ags ags' E) as [L' V].
  assert (W : forall k a', nth_error ags' (N.to_nat k) = Some a' -> exists a, nth_error ags (N.to_nat k) = Some a /\ f a = Ok a').
  { intros k a' E'. destruct (nth_back ags ags' _ _ L' E') as (a & Ea). destruct (V _ _ Ea) as (a2 & E2 & F2). exists a. split; auto. congruence. }
  split; [|split].
  - split; [congruence|]. intros k a' E'. destruct (W k a' E') as (a & Ea & Fa). destruct (Each k a Ea) as (a2 & F2 & M2 & _). replace a' with a2 by congruence. exact M2.
  - destruct (team_at _ _ sel T Hsel) as (a & Ea & _). destruct (V _ _ Ea) as (a' & Ea' & Fa). destruct (Each sel a Ea) as (a2 & F2 & _ & S2 & _).
    rewrite Ea, Ea'. f_equal. rewrite <- (S2 eq_refl). congruence.
  - intros Ha k a a' Ea Ea'. destruct (V _ _ Ea) as (a2 & E2 & F2). destruct (Each k a Ea) as (a3 & F3 & _ & _ & X3).
    assert (a' = a3) by congruence. subst. auto.
Qed.

(** ** The exchange *)
Lemma store_total a k D : forall c, (forall kv, In kv D -> robot_id (fst kv) = k /\ mrows (snd kv) = p_r (a_params a) /\ mcols (snd kv) = (p_d (a_params a) + 1)%nat) ->
  exists c', store_poses a k D c = Ok c'.
Proof.
  unfold store_poses. induction D as [|kv D IH]; intros c H; [cbn; eauto|]. cbn [foldM].
  destruct (H kv (or_introl eq_refl)) as (H1 & H2 & H3). rewrite H1, H2, H3, N.eqb_refl, !Nat.eqb_refl. cbn [check].
  destruct (requireNeighborPose (a_pg a) (fst kv)); cbn [bind]; apply IH; intros; apply H; right; auto.
Qed.

Lemma mem_getStatus it k a : Mem it k a -> Mem it k (ag_getStatus a).
Proof. intros []. constructor; auto. apply (step_inv x a AGetStatus); auto. exact I. Qed.
Lemma mem_nbrStatus it k a s : Mem it k a -> Mem it k (ag_setNeighborStatus a s).
Proof. intros []. constructor; auto. apply (step_inv x a (AStatus s)); auto. exact I. Qed.
Lemma ready_after a b : a_YLift a <> None -> a_state b = INITIALIZED -> nbr_ready (ag_setNeighborStatus a (a_status (ag_getStatus b))) (a_id b) = true.
Proof.
  intros HY Hs. unfold nbr_ready, ag_setNeighborStatus. cbn [a_YLift sa_team a_team ag_getStatus sa_status a_status st_id].
  rewrite (mfind_mset_eq _ Nltb_total). destruct (a_YLift a); [|contradiction]. cbn [st_state]. rewrite Hs. reflexivity.
Qed.

(** What both kinds of exchange have in common: [src] is what is sent, [cache]
    where it is kept, [rest] the other cache. *)
Definition put_cache (aux : bool) (a : Agent R) c := if aux then sa_naux a c else sa_ndict a c.
Definition cache (aux : bool) (a : Agent R) := if aux then a_naux a else a_ndict a.
Definition src (aux : bool) (a : Agent R) : PoseArr R := if aux then a_Y a else a_X a.
Definition gett (aux : bool) : Agent R -> res (option (list (PoseID * Mx R))) := if aux then ag_getAuxSharedPoseDict else ag_getSharedPoseDict.
Definition updd (aux : bool) : Agent R -> N -> list (PoseID * Mx R) -> res (Agent R) := if aux then ag_updateAuxNeighborPoses else ag_updateNeighborPoses x.

Lemma get_total aux it k a : (aux = true -> p_accel P = true) -> Mem it k a ->
  exists D, gett aux a = Ok (Some D) /\ dict_spec a (pa_X (src aux a)) (fun _ => True) D.
Proof.
  intros Ha M. destruct (mem_arr _ _ _ M) as (AX & AY & _). destruct M. assert (Hi : is_init a = true) by (apply is_init_eq; auto).
  destruct aux; unfold gett, src.
  - destruct (pose_dict_spec a (a_Y a) mm_inv0) as (D & E & S); [rewrite mm_P0, HPr, HPd; auto|].
    unfold ag_getAuxSharedPoseDict. rewrite mm_P0, Ha by auto. cbn [check]. rewrite Hi. cbn [negb]. rewrite E. cbn. eauto.
  - destruct (pose_dict_spec a (a_X a) mm_inv0) as (D & E & S); [rewrite mm_P0, HPr, HPd; auto|].
    unfold ag_getSharedPoseDict. rewrite Hi. cbn [negb]. rewrite E. cbn. eauto.
Qed.

Lemma dict_entries a M sel D : AInv a -> dict_spec a M sel D -> forall kv, In kv D ->
  robot_id (fst kv) = a_id a /\ mrows (snd kv) = p_r (a_params a) /\ mcols (snd kv) = (p_d (a_params a) + 1)%nat.
Proof.
  intros I [Hs Hf] kv Hin. assert (F : mfind pose_ltb (fst kv) D = Some (snd kv)).
  { apply (mfind_In _ pose_total _ _ _ Hs). destruct kv; exact Hin. }
  apply Hf in F. destruct F as ((e & He & _ & Ep) & ->). split; [|auto]. rewrite <- Ep. apply (own_pose_in a e I He).
Qed.

Lemma upd_total aux it k a j D : (aux = true -> p_accel P = true) -> Mem it k a -> j <> k -> nbr_ready a j = true -> msorted pose_ltb D ->
  (forall kv, In kv D -> robot_id (fst kv) = j /\ mrows (snd kv) = r /\ mcols (snd kv) = (d + 1)%nat) ->
  exists c, updd aux a j D = Ok (put_cache aux a c) /\ Mem it k (put_cache aux a c) /\
    forall p, mfind pose_ltb p c = match mfind pose_ltb p D with
       | Some v => if requireNeighborPose (a_pg a) p then Some v else mfind pose_ltb p (cache aux a)
       | None => mfind pose_ltb p (cache aux a) end.
Proof.
  intros Ha M Hj Rd SD HD. pose proof M as M0. destruct M0. assert (Hi : is_init a = true) by (apply is_init_eq; auto).
  destruct (store_total a j D (cache aux a)) as (c & E); [rewrite mm_P0, HPr, HPd; auto|].
  destruct (store_poses_spec _ _ _ _ _ E) as (_ & _ & V). exists c.
  assert (EU : updd aux a j D = Ok (put_cache aux a c)).
  { destruct (N.eqb_spec j k) as [?|_]; [contradiction|]. destruct aux; unfold updd, put_cache, cache in *.
    - unfold ag_updateAuxNeighborPoses. rewrite mm_P0, Ha by auto. rewrite mm_id0. destruct (N.eqb_spec j k); [contradiction|]. cbn [check negb]. rewrite Rd, Hi. cbn [negb]. rewrite E. reflexivity.
    - unfold ag_updateNeighborPoses. rewrite mm_id0. destruct (N.eqb_spec j k); [contradiction|]. cbn [check negb]. rewrite Rd, mm_st0. cbn [negb state_eqb bind]. rewrite Hi. cbn [negb]. rewrite E. reflexivity. }
  split; [exact EU|]. split; [|exact (V SD)].
  assert (I' : AInv (put_cache aux a c)).
  { destruct aux; [apply (step_inv x a (AUpdAux j D)); auto|apply (step_inv x a (AUpdNbr j D)); auto]. }
  destruct aux; constructor; auto.
Qed.

(** The block of the trajectory [M] at frame [f]. *)
Definition blk (M : Mx R) (f : N) : Mx R := mblock M 0 (N.to_nat f * (d + 1)) r (d + 1).

(** Agents before and after: same trajectories, only the [aux] cache of [sel] changes. *)
Definition keeps (aux : bool) (sel : N) (ags ags' : list (Agent R)) : Prop :=
  length ags' = length ags /\ forall k a a', nth_error ags (N.to_nat k) = Some a -> nth_error ags' (N.to_nat k) = Some a' ->
    a_X a' = a_X a /\ a_Y a' = a_Y a /\ cache (negb aux) a' = cache (negb aux) a.

Lemma ask_total aux f sel ags : (aux = true -> p_accel P = true) -> (sel < m)%N -> team f ags ->
  exists ags', ex_ask (gett aux) (updd aux) sel ags = Ok ags' /\ team f ags' /\ keeps aux sel ags ags' /\
    forall s, nth_error ags' (N.to_nat sel) = Some s -> forall e, In e (pg_shared (G sel)) ->
      let q := other_pose sel e in exists b, nth_error ags (N.to_nat (robot_id q)) = Some b /\
        mfind pose_ltb q (cache aux s) = Some (blk (pa_X (src aux b)) (frame_id q)).
Proof.
  intros Ha Hsel T. unfold ex_ask.
  set (step := fun ags k => do a <- at_ ags k; if (a_id a =? sel)%N then Ok ags else
    do o <- gett aux a;
    match o with
    | None => Ok ags
    | Some D =>
        let a := ag_getStatus a in
        let ags := put ags k a in
        do s <- at_ ags sel;
        do s <- updd aux (ag_setNeighborStatus s (a_status a)) (a_id a) D;
        Ok (put ags sel s)
    end).
  assert (LA : length ags = N.to_nat m) by apply T.
  assert (Pre : forall j, (j <= length ags)%nat -> exists ags', foldM step ags (map N.of_nat (seq 0 j)) = Ok ags' /\ team f ags' /\ keeps aux sel ags ags' /\
     forall s, nth_error ags' (N.to_nat sel) = Some s -> forall e, In e (pg_shared (G sel)) ->
      let q := other_pose sel e in (robot_id q < N.of_nat j)%N -> exists b, nth_error ags (N.to_nat (robot_id q)) = Some b /\
        mfind pose_ltb q (cache aux s) = Some (blk (pa_X (src aux b)) (frame_id q))).
  { induction j as [|j IH]; intros Hj.
    - exists ags. split; [reflexivity|]. split; [exact T|]. split.
      + split; auto. intros k a a' E E'. assert (a' = a) by congruence. subst. auto.
      + intros s _ e _ q Hq. lia.
    - destruct IH as (ags1 & E1 & T1 & K1 & C1); [lia|]. rewrite seq_S, map_app, foldM_app, E1. cbn [bind map foldM]. rewrite Nat.add_0_l.
      set (k := N.of_nat j). assert (Hk : (k < m)%N) by lia.
      destruct (team_at f ags1 k T1 Hk) as (a & Na & Aa & Ma).
      unfold step at 1. rewrite Aa. cbn [bind]. rewrite (mm_id _ _ _ Ma).
      destruct (team_at f ags1 sel T1 Hsel) as (s & Ns & As & Ms).
      destruct (N.eqb_spec k sel) as [Ek|Hn].
      + cbn [bind]. exists ags1. split; [reflexivity|]. split; [exact T1|]. split; [exact K1|].
        intros s' Hs' e He. cbv zeta. set (q := other_pose sel e). intros Hq. apply (C1 s' Hs' e He). fold q. destruct (HC sel e Hsel He) as (_ & Hne & _). fold q in Hne.
        assert (robot_id q <> k) by congruence. unfold k in *. lia.
      + destruct (get_total aux _ _ _ Ha Ma) as (D & -> & DS). cbn [bind].
        pose proof (team_put f ags1 k (ag_getStatus a) T1 (mem_getStatus _ _ _ Ma)) as T2. set (ags2 := put ags1 k (ag_getStatus a)) in *.
        assert (N2 : nth_error ags2 (N.to_nat sel) = Some s).
        { unfold ags2. rewrite nth_put. destruct (N.eqb_spec k sel); [contradiction|exact Ns]. }
        unfold at_ at 1. rewrite N2. cbn [bind].
        pose proof (mem_nbrStatus _ _ _ (a_status (ag_getStatus a)) Ms) as Ms2.
        assert (Rd := ready_after s a (mm_Y _ _ _ Ms) (mm_st _ _ _ Ma)). rewrite (mm_id _ _ _ Ma) in Rd.
        set (s2 := ag_setNeighborStatus s (a_status (ag_getStatus a))) in *.
        destruct (upd_total aux _ _ s2 k D Ha Ms2) as (c & EU & M3 & V); auto.
        { apply DS. } { intros kv Hkv. destruct (dict_entries _ _ _ _ (mm_inv _ _ _ Ma) DS kv Hkv) as (Q1 & Q2 & Q3).
          rewrite (mm_P _ _ _ Ma), HPr in Q2. rewrite (mm_P _ _ _ Ma), HPd in Q3. rewrite (mm_id _ _ _ Ma) in Q1. auto. }
        change (a_id (ag_getStatus a)) with (a_id a). rewrite (mm_id _ _ _ Ma), EU. cbn [bind].
        exists (put ags2 sel (put_cache aux s2 c)). split; [reflexivity|]. split; [apply team_put; auto|]. split.
        * destruct K1 as [L1 K1]. split; [rewrite len_put; unfold ags2; rewrite len_put; exact L1|].
          intros j' b b' Eb. rewrite nth_put. destruct (N.eqb_spec sel j') as [<-|Hne].
          -- rewrite N2. cbn [option_map]. intros [= <-]. destruct (K1 sel b s Eb Ns) as (Q1 & Q2 & Q3). destruct aux; cbn; auto.
          -- unfold ags2. rewrite nth_put. destruct (N.eqb_spec k j') as [<-|Hne2].
             ++ rewrite Na. cbn [option_map]. intros [= <-]. destruct (K1 k b a Eb Na) as (Q1 & Q2 & Q3). destruct aux; cbn; auto.
             ++ intros Eb'. apply (K1 j' b b' Eb Eb').
        * intros s' Hs' e He. cbv zeta. set (q := other_pose sel e). intros Hq. rewrite nth_put, N.eqb_refl, N2 in Hs'. cbn [option_map] in Hs'. injection Hs' as <-.
          assert (EC : cache aux (put_cache aux s2 c) = c) by (destruct aux; reflexivity). rewrite EC, V. clear EC.
          assert (EC : cache aux s2 = cache aux s) by (destruct aux; reflexivity). rewrite EC. clear EC.
          destruct (HC sel e Hsel He) as (_ & Hne & e' & He' & Own). fold q in Hne, He', Own.
          destruct (N.eq_dec (robot_id q) k) as [Eq|Nq].
          -- (* sent now *)
             destruct (nth_back ags ags1 (N.to_nat k) a) as (b & Nb); [apply K1|exact Na|].
             destruct K1 as [_ K1]. destruct (K1 k b a Nb Na) as (Q1 & Q2 & _). exists b. rewrite Eq. split; [exact Nb|].
             assert (ES : src aux a = src aux b) by (destruct aux; assumption).
             assert (FD : mfind pose_ltb q D = Some (blk (pa_X (src aux b)) (frame_id q))).
             { apply DS. rewrite (mm_id _ _ _ Ma). split.
               - exists e'. split; [|split; [exact I|rewrite <- Eq; exact Own]].
                 destruct (like_fields _ _ (mm_pg _ _ _ Ma)) as (_ & _ & _ & F4 & _). rewrite F4, <- Eq. exact He'.
               - rewrite ES, (mm_P _ _ _ Ma), HPr, HPd. reflexivity. }
             rewrite FD. assert (RQ : requireNeighborPose (a_pg s2) q = true).
             { apply require_npub; [apply (mm_inv _ _ _ Ms2)|]. apply (wf_npub _ (iv_pg _ (mm_inv _ _ _ Ms2))).
               destruct (like_fields _ _ (mm_pg _ _ _ Ms2)) as (F1 & _ & _ & F4 & _). exists e. rewrite F4, F1, (proj1 (HG sel Hsel)). auto. }
             rewrite RQ. reflexivity.
          -- assert (FN : mfind pose_ltb q D = None).
             { destruct (mfind pose_ltb q D) eqn:F; auto. apply DS in F. destruct F as ((e2 & He2 & _ & Ep) & _).
               destruct (own_pose_in a e2 (mm_inv _ _ _ Ma) He2) as (Q1 & _). rewrite Ep, (mm_id _ _ _ Ma) in Q1. contradiction. }
             rewrite FN. apply (C1 s Ns e He). fold q. unfold k in *. lia. }
  destruct (Pre (length ags) (le_n _)) as (ags' & E & T' & K & C). exists ags'. split; [exact E|]. split; [exact T'|]. split; [exact K|].
  intros s Hs e He. apply (C s Hs e He). destruct (HC sel e Hsel He) as (Hq & _). lia.
Qed.

(** ** The selected robot's turn *)
Lemma rem_find g e : pg_wf g -> isNeighborActive g (other_robot (pg_id g) e) = Ok true ->
  remote_pose g e = mfind pose_ltb (other_pose (pg_id g) e) (pg_nposes g).
Proof.
  intros W HA. unfold remote_pose. rewrite HA. cbn [orb]. rewrite (poseid_find _ _ (wf_nposes_sorted _ W)). reflexivity.
Qed.

(** The trajectory of each robot. *)
Definition traj (ags : list (Agent R)) (k : N) : Mx R := match nth_error ags (N.to_nat k) with Some a => pa_X (a_X a) | None => mzero 0 0 end.

Hypothesis (HD : forall k, (k < m)%N -> pg_d (G k) = d /\ pg_r (G k) = r /\ pg_priors (G k) = []).
Hypothesis (HA : forall k e, (k < m)%N -> In e (pg_shared (G k)) -> isNeighborActive (G k) (other_robot k e) = Ok true).
Context (ds' : list (Meas R)).
Hypothesis (HK : forall k, (k < m)%N -> knows k ds' (G k)).

Lemma like_active g0 g j : like g0 g -> isNeighborActive g j = isNeighborActive g0 j.
Proof.
  intros L. destruct (like_fields _ _ L) as (_ & _ & _ & _ & E5 & _ & _ & _ & E9 & _). unfold isNeighborActive, hasNeighbor. rewrite E5, E9. reflexivity.
Qed.

Lemma full_of sel ags ags' aux s : (sel < m)%N -> nth_error ags' (N.to_nat sel) = Some s ->
  (forall s, nth_error ags' (N.to_nat sel) = Some s -> forall e, In e (pg_shared (G sel)) ->
      let q := other_pose sel e in exists b, nth_error ags (N.to_nat (robot_id q)) = Some b /\
        mfind pose_ltb q (cache aux s) = Some (blk (pa_X (src aux b)) (frame_id q))) -> full (G sel) (cache aux s).
Proof.
  intros Hsel Hs C e He. destruct (C s Hs e He) as (b & _ & F). rewrite (proj1 (HG sel Hsel)). eauto.
Qed.

(** The selected robot's update lowers the team's cost if the optimiser lowers
    the robot's own. *)
Lemma sel_descent opt sel ags s s' g : (sel < m)%N -> nth_error ags (N.to_nat sel) = Some s -> (exists it, Mem it sel s) ->
  opt_sized opt ->
  like (G sel) g -> pg_nposes g = a_ndict s ->
  (forall e, In e (pg_shared (G sel)) -> let q := other_pose sel e in
     mfind pose_ltb q (a_ndict s) = Some (blk (traj ags (robot_id q)) (frame_id q))) ->
  pa_X (a_X s') = snd (opt g (pa_X (a_X s))) ->
  (forall X g1 v g2 v', qp_f g X = Ok (g1, v) -> qp_f g (snd (opt g X)) = Ok (g2, v') -> (v' <= v)%R) ->
  (central_cost r d ds' (range 0 m) (fun _ => []) (traj (put ags sel s')) <= central_cost r d ds' (range 0 m) (fun _ => []) (traj ags))%R.
Proof.
  intros Hsel Ns (it & M) SO L EN C EX DC.
  destruct (like_fields _ _ L) as (F1 & F2 & F3 & F4 & _ & F6 & F7 & F8 & _ & F10 & _).
  destruct (HD sel Hsel) as (D1 & D2 & D3). destruct (HG sel Hsel) as (G1 & G2). pose proof L as (W & _).
  assert (Id : pg_id g = sel) by congruence.
  assert (Act : forall e, In e (pg_shared g) -> remote_pose g e = mfind pose_ltb (other_pose sel e) (a_ndict s)).
  { intros e He. rewrite rem_find; auto; [rewrite Id, EN; reflexivity|]. rewrite Id, (like_active _ _ _ L). apply HA; auto. congruence. }
  assert (NK : needed_known g).
  { intros e He _. rewrite Id, EN. rewrite F4 in He. rewrite (C e He). eauto. }
  assert (UO : used_ok g).
  { apply nposes_used; auto. intros p Z Hin. rewrite EN in Hin. destruct (iv_nd _ (mm_inv _ _ _ M)) as [Sd Q].
    destruct (Q p Z) as (_ & Q1 & Q2); [apply (mfind_In _ pose_total); auto|]. rewrite (mm_P _ _ _ M), HPr in Q1. rewrite (mm_P _ _ _ M), HPd in Q2. split; [congruence|]. rewrite Q2. lia. }
  destruct (mem_arr _ _ _ M) as ((_ & _ & _ & X1 & X2) & _ & X3). rewrite X3 in X2.
  assert (Sz : forall X, mrows X = r -> mcols X = ((d + 1) * N.to_nat (pg_n (G sel)))%nat -> exists g' v, qp_f g X = Ok (g', v)).
  { intros X R1 R2. apply (like_f_defined (G sel) g X L NK); [apply (HB sel Hsel)|apply (HB sel Hsel)|congruence|]. rewrite D1, R2. lia. }
  destruct (Sz _ X1 X2) as (g1 & v & E1). destruct (SO g (pa_X (a_X s)) g1 v E1) as [O1 O2].
  destruct (Sz (snd (opt g (pa_X (a_X s))))) as (g2 & v' & E2); [congruence|congruence|].
  pose proof (DC _ _ _ _ _ E1 E2) as LE. rewrite (like_f_val _ _ _ _ _ L UO E1), (like_f_val _ _ _ _ _ L UO E2) in LE.
  assert (T1 : traj ags sel = pa_X (a_X s)) by (unfold traj; rewrite Ns; reflexivity).
  assert (T2 : traj (put ags sel s') sel = snd (opt g (pa_X (a_X s)))) by (unfold traj; rewrite nth_put, N.eqb_refl, Ns; exact EX).
  rewrite <- T1 in LE at 2. rewrite <- T2 in LE.
  pose proof (team_delta r d ds' (range 0 m) (fun _ => []) (traj ags) (traj (put ags sel s')) sel g W Id) as TD.
  assert (TD' : (central_cost r d ds' (range 0 m) (fun _ => []) (traj (put ags sel s')) - central_cost r d ds' (range 0 m) (fun _ => []) (traj ags) =
    local_cost g (traj (put ags sel s') sel) - local_cost g (traj ags sel))%R).
  { apply TD.
    - congruence.
    - congruence.
    - unfold knows. rewrite F2, F3, F4. apply HK; auto.
    - congruence.
    - intros e He. rewrite (Act e He). rewrite F4 in He. rewrite (C e He), Id. eexists. split; [reflexivity|]. cbv zeta. intros a c Ha Hc.
      unfold blk, mblock, pose_blk. cbn [Num.mat]. rewrite F7, D1. f_equal. lia.
    - apply range_NoDup.
    - apply range_In; lia.
    - intros j Hj. unfold traj. rewrite nth_put. destruct (N.eqb_spec sel j); [congruence|reflexivity]. }
  lra.
Qed.

(** ** One round *)
Context {St : Type} (L : Lib R St) (n : N) (ds : list (Meas R)) (opt : N -> Optimizer R) (gc : PoseGraph R).
Hypothesis (Hs : sizes_ok n m) (HN : forall k, (k < m)%N -> pg_n (G k) = size_of n m k) (HR : Forall2 (relabelled n m) ds ds')
  (HW : Forall (fun e => mweight e = 1%R) ds) (SO : forall i, opt_sized (opt i)).
Hypothesis (HGc : pg_r gc = r /\ pg_d gc = d /\ pg_n gc = n).
Notation whole := (whole d r n).
Hypothesis (HCen : forall X, whole X -> (exists g, qp_f gc X = Ok (g, dataset_cost r d ds X)) /\ exists g D, qp_grad gc X = Ok (g, D)).

Definition cen (g : PoseGraph R) : Prop := g = gc \/ same_data gc g.
Definition grad_of (X D : Mx R) : Prop := exists g, qp_grad gc X = Ok (g, D).

Lemma cen_eval g X : cen g -> whole X -> exists g1 D g2, qp_riegrad L g X = Ok (g1, l_proj L X D) /\ grad_of X D /\
  qp_f g1 X = Ok (g2, dataset_cost r d ds X) /\ cen g2.
Proof.
  intros C WX. destruct (HCen X WX) as ((g0 & F0) & g3 & D & E3). destruct HGc as (C1 & C2 & C3). destruct WX as [W1 W2].
  assert (SD : exists g1, qp_grad g X = Ok (g1, D) /\ same_data gc g1 /\ fits_var g X = true).
  { unfold fits_var. destruct C as [->|SD].
    - exists g3. split; [exact E3|]. split; [exact (grad_data _ _ _ _ E3)|]. rewrite C1, C2, C3, W1, W2, Nat.eqb_refl. apply Nat.eqb_eq. lia.
    - exists g. split; [apply (grad_same gc g X SD); eauto|]. split; [exact SD|]. destruct SD as ((R1 & R2 & R3 & _) & _).
      rewrite R1, R2, R3, C1, C2, C3, W1, W2, Nat.eqb_refl. apply Nat.eqb_eq. lia. }
  destruct SD as (g1 & E1 & SD & FV). exists g1, D, g1. unfold qp_riegrad. rewrite FV. cbn [check]. rewrite E1. cbn [bind].
  split; [reflexivity|]. split; [exists g3; exact E3|]. split; [|right; exact SD]. apply (f_same gc g1 X SD). eauto.
Qed.

(** [X] is made of the robots' trajectories. *)
Definition joined (ags : list (Agent R)) (X : Mx R) : Prop := whole X /\
  forall k l i c, (k < m)%N -> (l < size_of n m k)%N -> (i < r)%nat -> (c <= d)%nat ->
    X i (colof d (k * (n / m) + l)%N c) = traj ags k i (colof d l c).

Lemma joined_cost ags X : joined ags X -> central_cost r d ds' (range 0 m) (fun _ => []) (traj ags) = dataset_cost r d ds X.
Proof.
  intros [_ J]. rewrite <- (same_cost n m r d ds ds' X Hs HR HW). unfold central_cost. f_equal. f_equal.
  apply rsumL_ext. intros e He. unfold central_edge.
  assert (O : exists e0, relabelled n m e0 e).
  { clear - HR He. induction HR; [destruct He|]. destruct He as [<-|He]; eauto. }
  destruct O as (e0 & O1 & O2 & P1 & P2 & _).
  assert (B : forall k p l i c, owns n m k p -> p = (k * (n / m) + l)%N -> (i < r)%nat -> (c <= d)%nat ->
     pose_blk d (traj ags k) (N.to_nat l) i c = pose_blk d (robot_block d r n m k X) (N.to_nat l) i c).
  { intros k p l i c O -> Ha Hc. rewrite (blk_eq n m d r k X (k * (n / m) + l)%N l i c Hs O eq_refl). apply (owns_size n m _ _ Hs) in O.
    unfold pose_blk. symmetry. apply J; auto; lia. }
  apply edge_cost_ext; intros i c Ha Hc; [apply (B _ _ _ i c O1 P1 Ha Hc)|apply (B _ _ _ i c O2 P2 Ha Hc)].
Qed.

Lemma form_ext (Xs Xs' : N -> option (Mx R)) X0 : (forall k, (k < m)%N -> Xs k = Xs' k) -> form_central d r n m Xs X0 = form_central d r n m Xs' X0.
Proof.
  intros E. unfold form_central. assert (Q : forall k, In k (range 0 m) -> Xs k = Xs' k) by (intros k Hk; apply range_In in Hk; apply E; lia).
  revert Q. generalize (range 0 m). intros l. revert X0. induction l as [|k l IH]; intros X0 Q; [reflexivity|]. cbn [foldM].
  rewrite (Q k (or_introl eq_refl)). destruct (robot_cols d n m k). destruct (Xs' k); [destruct (require _ _)|]; cbn [bind]; auto; apply IH; intros; apply Q; right; auto.
Qed.

Lemma form_total f ags X0 : team f ags -> whole X0 -> exists X, form_central d r n m (team_X ags) X0 = Ok X /\ joined ags X.
Proof.
  intros T WX. rewrite (form_ext _ (fun k => Some (traj ags k))).
  2:{ intros k Hk. destruct (team_at f ags k T Hk) as (a & Na & _). unfold team_X, traj. rewrite Na. reflexivity. }
  destruct (central_formed n m d r Hs X0 (traj ags) WX) as (X & E & R1 & R2 & V).
  { intros k Hk. destruct (team_at f ags k T Hk) as (a & Na & _ & M). destruct (mem_arr _ _ _ M) as ((_ & _ & _ & X1 & X2) & _ & X3).
    unfold traj. rewrite Na, X1, X2, X3, HN by auto. split; [reflexivity|lia]. }
  exists X. split; [exact E|]. split; [split; auto|exact V].
Qed.

Lemma max_elt_lt l : forall best bv k, (best < k)%nat -> (max_element best (bv : R) k l < k + length l)%nat.
Proof.
  induction l as [|y l IH]; intros best bv k Hb; cbn [max_element length]; [lia|].
  destruct (nltb bv y); [specialize (IH k y (Datatypes.S k) ltac:(lia))|specialize (IH best bv (Datatypes.S k) ltac:(lia))]; lia.
Qed.
Lemma next_lt nbrs sel (norms : list R) : (sel < m)%N -> length norms = N.to_nat m -> (select_next nbrs sel norms < m)%N.
Proof.
  intros Hsel Hl. unfold select_next. destruct nbrs; auto. destruct norms as [|y l]; cbn [max_index]; [cbn in Hl; lia|].
  pose proof (max_elt_lt l 0 y 1 ltac:(lia)). cbn in Hl. lia.
Qed.

(** The loop's variables at the start of iteration [it]. *)
Definition loop_ok (it : N) (lp : Loop R) : Prop :=
  team (fun _ => it) (lp_agents lp) /\ (lp_sel lp < m)%N /\ whole (lp_X lp) /\ cen (lp_central lp).

Lemma anchor_total it ags M : team (fun _ => it) ags -> mrows M = r -> mcols M = (d + 1)%nat ->
  exists ags', mapM (fun a => ag_setGlobalAnchor a M) ags = Ok ags' /\ team (fun _ => it) ags' /\ forall k, traj ags' k = traj ags k.
Proof.
  intros T M1 M2. set (f := fun a : Agent R => ag_setGlobalAnchor a M).
  assert (Each : forall k a, nth_error ags (N.to_nat k) = Some a -> exists a', f a = Ok a' /\ Mem it k a' /\ a_X a' = a_X a).
  { intros k a Na. pose proof (team_lt _ _ _ _ T Na) as Hk. pose proof (proj2 T k a Na) as Mm. pose proof (mm_inv _ _ _ Mm) as I.
    assert (E : f a = Ok (sa_anchor a (Some M))).
    { unfold f, ag_setGlobalAnchor, relaxation_rank, dimension. rewrite (iv_r _ I), (iv_d _ I), (mm_P _ _ _ Mm), HPr, HPd, M1, M2, !Nat.eqb_refl. reflexivity. }
    exists (sa_anchor a (Some M)). split; [exact E|]. split; [|reflexivity].
    assert (I' : AInv (sa_anchor a (Some M))) by (apply (step_inv x a (ASetAnchor M)); auto; exact Logic.I).
    destruct Mm. constructor; auto. }
  destruct (mapM_total f ags) as (ags' & E).
  { intros a Hin. apply In_nth_error in Hin. destruct Hin as (k & E). destruct (Each (N.of_nat k) a) as (a' & Ea & _); [rewrite Nat2N.id; auto|eauto]. }
  exists ags'. split; [exact E|]. destruct (mapM_nth f ags ags' E) as [L' V]. split.
  - split; [rewrite L'; apply T|]. intros k a' E'. destruct (nth_back ags ags' _ _ L' E') as (a & Ea). destruct (V _ _ Ea) as (a2 & E2 & F2).
    destruct (Each k a Ea) as (a3 & F3 & M3 & _). replace a' with a3 by congruence. exact M3.
  - intros k. unfold traj. destruct (nth_error ags (N.to_nat k)) as [a|] eqn:Ea.
    + destruct (V _ _ Ea) as (a2 & -> & F2). destruct (Each k a Ea) as (a3 & F3 & _ & X3). replace a2 with a3 by congruence. rewrite X3. reflexivity.
    + apply nth_error_None in Ea. rewrite <- L' in Ea. apply nth_error_None in Ea. rewrite Ea. reflexivity.
Qed.

Definition next_of (sel : N) (RG : Mx R) : N :=
  select_next (pg_nbrs (G sel)) sel (map (fun k => mnorm (robot_block d r n m k RG)) (range 0 m)).

Theorem round_total it lp : (it + 1 < 4294967296)%N -> loop_ok it lp ->
  exists lp' line stop, ex_round x L opt d r n m (p_accel P) it lp = Ok (lp', line, stop) /\
    team (fun _ => (it + 1)%N) (lp_agents lp') /\ (lp_sel lp' < m)%N /\ cen (lp_central lp') /\ joined (lp_agents lp') (lp_X lp') /\
    ln_iter line = it /\ ln_robot line = lp_sel lp /\ ln_cost line = (2 * dataset_cost r d ds (lp_X lp'))%R /\
    (exists D, grad_of (lp_X lp') D /\ ln_gradnorm line = mnorm (l_proj L (lp_X lp') D) /\
      (stop = false -> lp_sel lp' = next_of (lp_sel lp) (l_proj L (lp_X lp') D))) /\
    stop = nltb (ln_gradnorm line) (nlit 1 10) /\
    (p_accel P = false -> descending (opt it) ->
      central_cost r d ds' (range 0 m) (fun _ => []) (traj (lp_agents lp')) <= central_cost r d ds' (range 0 m) (fun _ => []) (traj (lp_agents lp)))%R.
Proof.
  intros Hit (T & Hsel & WX & HCn). unfold ex_round. set (sel := lp_sel lp) in *.
  assert (U : u32 (it + 1) = (it + 1)%N) by (unfold u32; apply N.mod_small; exact Hit).
  destruct (others_total opt it sel (lp_agents lp) Hsel SO T) as (ags1 & -> & T1 & N1 & X1). cbn [bind]. rewrite U in T1.
  set (f1 := fun k => if (k =? sel)%N then it else (it + 1)%N) in *.
  change ag_getSharedPoseDict with (gett false). change (ag_updateNeighborPoses x) with (updd false).
  destruct (ask_total false f1 sel ags1 ltac:(discriminate) Hsel T1) as (ags2 & -> & T2 & K2 & C2). cbn [bind].
  change ag_getAuxSharedPoseDict with (gett true). change ag_updateAuxNeighborPoses with (updd true).
  assert (Q3 : exists ags3, (if p_accel P then ex_ask (gett true) (updd true) sel ags2 else Ok ags2) = Ok ags3 /\ team f1 ags3 /\
    (forall k, traj ags3 k = traj ags1 k) /\
    exists s, nth_error ags3 (N.to_nat sel) = Some s /\ full (G sel) (a_ndict s) /\ (p_accel P = true -> full (G sel) (a_naux s)) /\
      forall e, In e (pg_shared (G sel)) -> let q := other_pose sel e in mfind pose_ltb q (a_ndict s) = Some (blk (traj ags1 (robot_id q)) (frame_id q))).
  { assert (TR : forall aux (l l' : list (Agent R)), keeps aux sel l l' -> forall k, traj l' k = traj l k).
    { intros aux l l' [LL KK] k. unfold traj. destruct (nth_error l (N.to_nat k)) as [a|] eqn:Ea.
      - destruct (nth_error l' (N.to_nat k)) as [a'|] eqn:Ea'; [destruct (KK k a a' Ea Ea') as (-> & _); reflexivity|].
        apply nth_error_None in Ea'. rewrite LL in Ea'. apply nth_error_None in Ea'. congruence.
      - apply nth_error_None in Ea. rewrite <- LL in Ea. apply nth_error_None in Ea. rewrite Ea. reflexivity. }
    destruct (team_at f1 ags2 sel T2 Hsel) as (s2 & Ns2 & _ & Ms2).
    assert (C2' : forall e, In e (pg_shared (G sel)) -> let q := other_pose sel e in mfind pose_ltb q (a_ndict s2) = Some (blk (traj ags1 (robot_id q)) (frame_id q))).
    { intros e He q. destruct (C2 s2 Ns2 e He) as (b & Nb & F). fold q in Nb, F. unfold traj. rewrite Nb. exact F. }
    pose proof (full_of sel ags1 ags2 false s2 Hsel Ns2 C2) as FU.
    destruct (p_accel P) eqn:Ha.
    - destruct (ask_total true f1 sel ags2 ltac:(intros _; exact Ha) Hsel T2) as (ags3 & E3 & T3 & K3 & C3). exists ags3. split; [exact E3|]. split; [exact T3|].
      split; [intros k; rewrite (TR _ _ _ K3), (TR _ _ _ K2); reflexivity|].
      destruct (team_at f1 ags3 sel T3 Hsel) as (s3 & Ns3 & _ & Ms3). exists s3. split; [exact Ns3|].
      pose proof (full_of sel ags2 ags3 true s3 Hsel Ns3 C3) as FU3. destruct K3 as [_ K3]. destruct (K3 sel s2 s3 Ns2 Ns3) as (_ & _ & EC). cbn [negb cache] in EC.
      rewrite EC. split; [exact FU|]. split; [intros _; exact FU3|exact C2'].
    - exists ags2. split; [reflexivity|]. split; [exact T2|]. split; [intros k; apply (TR _ _ _ K2)|]. exists s2. split; [exact Ns2|]. split; [exact FU|]. split; [discriminate|exact C2']. }
  destruct Q3 as (ags3 & -> & T3 & TR3 & s & Ns & Fd & Fa & Cs). cbn [bind].
  assert (As : at_ ags3 sel = Ok s) by (unfold at_; rewrite Ns; reflexivity). rewrite As. cbn [bind].
  pose proof (proj2 T3 sel s Ns) as Ms. unfold f1 in Ms. rewrite N.eqb_refl in Ms.
  destruct (mem_iterate it sel s (opt it) true Hsel Ms (SO it)) as (s' & -> & Ms' & _ & Ds); [auto|auto|]. cbn [bind]. rewrite U in Ms'.
  assert (T4 : team (fun _ => (it + 1)%N) (put ags3 sel s')).
  { split; [rewrite len_put; apply T3|]. intros k a. rewrite nth_put. destruct (N.eqb_spec sel k) as [<-|Hn].
    - rewrite Ns. cbn. intros [= <-]. exact Ms'.
    - intros Na. pose proof (proj2 T3 k a Na) as Mk. unfold f1 in Mk. destruct (N.eqb_spec k sel); [congruence|exact Mk]. }
  set (ags4 := put ags3 sel s') in *.
  destruct (form_total _ ags4 (lp_X lp) T4 WX) as (X & -> & J). cbn [bind]. pose proof J as [WX' _].
  destruct (cen_eval (lp_central lp) X HCn WX') as (g1 & D & g2 & -> & GD & E2 & HC2). cbn [bind]. rewrite E2. cbn [bind].
  assert (Desc : p_accel P = false -> descending (opt it) ->
      (central_cost r d ds' (range 0 m) (fun _ => []) (traj ags4) <= central_cost r d ds' (range 0 m) (fun _ => []) (traj (lp_agents lp)))%R).
  { intros Ha DC. destruct (Ds Ha eq_refl) as (g & Lg & Eg & EX).
    assert (LE := sel_descent (opt it) sel ags3 s s' g Hsel Ns (ex_intro _ it Ms) (SO it) Lg Eg). fold ags4 in LE.
    assert (CT : central_cost r d ds' (range 0 m) (fun _ => []) (traj ags3) = central_cost r d ds' (range 0 m) (fun _ => []) (traj (lp_agents lp))).
    { assert (TE : forall k, traj ags3 k = traj (lp_agents lp) k).
      { intros k. rewrite TR3. unfold traj. destruct (nth_error (lp_agents lp) (N.to_nat k)) as [a|] eqn:Ea.
        - destruct (nth_error ags1 (N.to_nat k)) as [a1|] eqn:Ea1; [rewrite (X1 Ha k a a1 Ea Ea1); reflexivity|].
          apply nth_error_None in Ea1. rewrite (proj1 T1), <- (proj1 T) in Ea1. apply nth_error_None in Ea1. congruence.
        - apply nth_error_None in Ea. rewrite (proj1 T), <- (proj1 T1) in Ea. apply nth_error_None in Ea. rewrite Ea. reflexivity. }
      unfold central_cost, central_edge. f_equal. f_equal; apply rsumL_ext; intros; rewrite ?TE; reflexivity. }
    rewrite <- CT. apply LE.
    - intros e He. cbv zeta. rewrite TR3. exact (Cs e He).
    - exact EX.
    - intros Y h1 v h2 v' F1 F2. exact (DC g Y h1 v h2 v' F1 F2). }
  cbn [ln_iter ln_robot ln_cost ln_gradnorm]. rewrite (mm_id _ _ _ Ms').
  destruct (nltb (mnorm (l_proj L X D)) (nlit 1 10)) eqn:St'.
  - do 3 eexists. split; [reflexivity|]. cbn [lp_agents lp_sel lp_X lp_central ln_iter ln_robot ln_cost ln_gradnorm].
    split; [exact T4|]. split; [exact Hsel|]. split; [exact HC2|]. split; [exact J|]. split; [reflexivity|]. split; [reflexivity|]. split; [reflexivity|].
    split; [exists D; repeat split; auto; discriminate|]. split; [symmetry; exact St'|exact Desc].
  - assert (Hm : (0 < m)%N) by (unfold sizes_ok in Hs; lia). destruct (team_at _ ags4 0%N T4 Hm) as (a0 & Na0 & -> & M0). cbn [bind].
    unfold ag_getSharedPose. assert (Hi : is_init a0 = true) by (apply is_init_eq; apply M0). rewrite Hi. cbn [negb].
    destruct (mem_arr _ _ _ M0) as (AX & _ & NP). destruct (iv_X _ (mm_inv _ _ _ M0)) as [Nz _]; [rewrite (mm_st _ _ _ M0); discriminate|].
    destruct (N.leb_spec (pg_n (a_pg a0)) 0) as [?|_]; [lia|]. rewrite (pa_pose_eq _ _ _ _ _ AX) by (unfold num_poses; lia). cbn [bind].
    destruct (anchor_total (it + 1)%N ags4 (mblock (pa_X (a_X a0)) 0 (N.to_nat 0 * (d + 1)) r (d + 1)) T4 eq_refl eq_refl) as (ags5 & -> & T5 & TR5). cbn [bind].
    do 3 eexists. split; [reflexivity|]. cbn [lp_agents lp_sel lp_X lp_central ln_iter ln_robot ln_cost ln_gradnorm].
    split; [exact T5|]. split; [apply next_lt; auto; rewrite map_length, range_length; f_equal; lia|]. split; [exact HC2|].
    split; [split; [exact WX'|]; intros k l a c Hk Hl Hra Hc; rewrite TR5; apply J; auto|]. split; [reflexivity|]. split; [reflexivity|]. split; [reflexivity|].
    split; [exists D; repeat split; auto; intros _; unfold next_of; destruct (like_fields _ _ (mm_pg _ _ _ Ms')) as (_ & _ & _ & _ & _ & _ & _ & _ & -> & _); reflexivity|].
    split; [symmetry; exact St'|].
    intros Ha DC. assert (CT : central_cost r d ds' (range 0 m) (fun _ => []) (traj ags5) = central_cost r d ds' (range 0 m) (fun _ => []) (traj ags4)).
    { unfold central_cost, central_edge. f_equal. f_equal; apply rsumL_ext; intros; rewrite ?TR5; reflexivity. }
    rewrite CT. auto.
Qed.

(** ** The loop *)
Definition cost0 (ags : list (Agent R)) : R := central_cost r d ds' (range 0 m) (fun _ => []) (traj ags).

(** Line [j] of the output, printed for the trajectories [X]. *)
Definition line_at (it sel : N) (X : Mx R) (ln : Line R) (D : Mx R) : Prop :=
  whole X /\ ln_iter ln = it /\ ln_robot ln = sel /\ ln_cost ln = (2 * dataset_cost r d ds X)%R /\ grad_of X D /\ ln_gradnorm ln = mnorm (l_proj L X D).

(** The output from iteration [it] on, and what the robots hold at its end. *)
Inductive run : N -> N -> list (Agent R) -> nat -> list (Line R) -> Loop R -> Prop :=
| run_end it sel ags lp : lp_agents lp = ags -> run it sel ags 0 [] lp
| run_stop it sel ags fuel ln lp D : line_at it sel (lp_X lp) ln D -> joined (lp_agents lp) (lp_X lp) -> (ln_gradnorm ln < 1 / 10)%R ->
    (p_accel P = false -> (forall i, descending (opt i)) -> (dataset_cost r d ds (lp_X lp) <= cost0 ags)%R) ->
    run it sel ags (Datatypes.S fuel) [ln] lp
| run_next it sel ags fuel ln lp1 D lns lp : line_at it sel (lp_X lp1) ln D -> joined (lp_agents lp1) (lp_X lp1) -> (1 / 10 <= ln_gradnorm ln)%R ->
    (p_accel P = false -> (forall i, descending (opt i)) -> (dataset_cost r d ds (lp_X lp1) <= cost0 ags)%R) ->
    run (it + 1) (next_of sel (l_proj L (lp_X lp1) D)) (lp_agents lp1) fuel lns lp ->
    run it sel ags (Datatypes.S fuel) (ln :: lns) lp.

Theorem loop_total fuel : forall it lp out, (it + N.of_nat fuel < 4294967296)%N -> loop_ok it lp ->
  exists lp' lines, ex_loop x L opt d r n m (p_accel P) fuel it lp out = Ok (lp', out ++ lines) /\
    team (fun _ => (it + N.of_nat (length lines))%N) (lp_agents lp') /\ run it (lp_sel lp) (lp_agents lp) fuel lines lp'.
Proof.
  induction fuel as [|fuel IH]; intros it lp out Hf HL.
  - exists lp, []. rewrite app_nil_r. split; [reflexivity|]. split; [|constructor; reflexivity]. destruct HL as [T _]. cbn [length]. replace (it + N.of_nat 0)%N with it by lia. exact T.
  - cbn [ex_loop]. destruct (round_total it lp ltac:(lia) HL) as (lp1 & ln & stop & -> & T1 & S1 & C1 & J1 & L1 & L2 & L3 & (D & G1 & G2 & G3) & G4 & Dd).
    cbn [bind]. pose proof J1 as [W1 _].
    assert (LA : line_at it (lp_sel lp) (lp_X lp1) ln D) by (unfold line_at; auto 10).
    assert (DD : p_accel P = false -> (forall i, descending (opt i)) -> (dataset_cost r d ds (lp_X lp1) <= cost0 (lp_agents lp))%R).
    { intros Ha Hd. rewrite <- (joined_cost _ _ J1). unfold cost0. auto. }
    assert (LT : (1 / 10)%R = nlit 1 10) by (unfold nlit; cbn; lra).
    destruct stop.
    + exists lp1, [ln]. split; [reflexivity|]. split; [cbn [length]; replace (it + N.of_nat 1)%N with (it + 1)%N by lia; exact T1|].
      apply run_stop with D; auto. rewrite LT. cbn [nltb NumR] in G4. destruct (Rlt_dec (ln_gradnorm ln) (nlit 1 10)); [auto|discriminate].
    + destruct (IH (it + 1)%N lp1 (out ++ [ln]) ltac:(lia)) as (lp' & lns & -> & T' & R'); [split; [exact T1|]; split; [exact S1|]; split; auto|].
      exists lp', (ln :: lns). split; [rewrite <- app_assoc; reflexivity|].
      split; [cbn [length]; replace (it + N.of_nat (Datatypes.S (length lns)))%N with (it + 1 + N.of_nat (length lns))%N by lia; exact T'|].
      rewrite G3 in R' by auto. apply run_next with lp1 D; auto. rewrite LT. cbn [nltb NumR] in G4. destruct (Rlt_dec (ln_gradnorm ln) (nlit 1 10)); [discriminate|lra].
Qed.
End T.
