(** What the robots of a team know of each other (C64). *)
From Coq Require Import List NArith ZArith Bool Arith Lia Reals.
From Verif Require Import Base SMap Num RSum ModelTypes ModelPoseGraph ModelRobust ModelPoses ModelSolver ModelAgent ModelTeam SpecPoseGraph SpecCost SpecAgent SpecStatus SpecFrames SpecTeam
  ProofsPoseGraph ProofsPGMain ProofsAgent ProofsAgent2 ProofsAgent3 ProofsAgent4 ProofsAgent5 ProofsAgent6 ProofsStatus ProofsCost4 ProofsFrames3 ProofsTeam.
Import ListNotations.
Local Open Scope res_scope.

Section T.
Context {S : Type} `{HS : Num S}.
Implicit Types (a b : Agent S) (x : Ext S) (t : Team S).

Lemma events_op x l : forall a e, In e (events x a l) -> In (e_op e) l.
Proof. induction l as [|o l IH]; cbn; intros a e H; auto. destruct (ag_step x a o); cbn in H; try contradiction. destruct H as [<-|H]; [left; reflexivity|right; eauto]. Qed.
Lemma history_op x id p l e : In e (history x id p l) -> In (e_op e) l.
Proof. unfold history. destruct (newAgent x id p); cbn; try contradiction. apply events_op. Qed.
Lemma since_In {A} (f : A -> bool) l v : In v (since f l) -> In v l.
Proof. induction l as [|u l IH]; cbn; auto. destruct (existsb f l); auto. destruct (f u); cbn; auto. Qed.
Lemma last_some_In {A B} (f : A -> option B) l v : last_some f l = Some v -> exists u, In u l /\ f u = Some v.
Proof. induction l as [|u l IH]; cbn; [discriminate|]. destruct (last_some f l); intros E; [injection E as ->; destruct IH as (w & ? & ?); auto; exists w; auto|exists u; auto]. Qed.

(** ** Where cached poses come from *)
Definition was (x : Ext S) (P : N -> AgentParams S) m os (arr_of : Agent S -> PoseArr S) (q : PoseID) (v : Mx S) : Prop :=
  once x P m os (robot_id q) (fun b => a_state b = INITIALIZED /\ is_block (p_r (P (robot_id q))) (p_d (P (robot_id q))) (pa_X (arr_of b)) (N.to_nat (frame_id q)) v /\
    exists e, In e (pg_shared (a_pg b)) /\ own_pose (robot_id q) e = q).
Lemma own_id b e q : AInv b -> In e (pg_shared (a_pg b)) -> own_pose (a_id b) e = q -> robot_id q = a_id b.
Proof. intros I He <-. apply (own_pose_in b e I He). Qed.
Lemma block_is r d (M : Mx S) i : is_block r d M i (mblock M 0 (i * (d + 1)) r (d + 1)).
Proof. split; [reflexivity|]. split; [reflexivity|]. intros k l _ _. reflexivity. Qed.
Lemma sent_was x P m os k ax D q v : sent x P m os (mkPoseMsg k ax D) -> mfind pose_ltb q D = Some v -> was x P m os (fun b => if ax then a_Y b else a_X b) q v.
Proof.
  unfold sent, was. cbn [pm_from pm_aux pm_dict]. intros (o1 & o2 & t & b & E & R & K & Hid & Hp & Hs & sel & [_ HD]) F. apply HD in F. destruct F as ((e & He & _ & Eo) & ->).
  destruct (robot_id_of _ _ _ _ _ _ _ (tinv _ _ _ _ _ R) K) as (_ & _ & I). pose proof (own_id b e q I He Eo) as Hq. rewrite Hid in Hq. rewrite Hq.
  exists o1, o2, t, b. split; auto. split; auto. split; auto. split; auto. split.
  - rewrite <- Hp. apply block_is.
  - exists e. split; auto. rewrite <- Hid. exact Eo.
Qed.
Theorem team_cache x P m os t j a q v : treach x P m os t -> robot t j a ->
  (mfind pose_ltb q (a_ndict a) = Some v -> was x P m os a_X q v) /\ (mfind pose_ltb q (a_naux a) = Some v -> was x P m os a_Y q v).
Proof.
  intros R K. pose proof (tinv _ _ _ _ _ R) as I. destruct (ti_agent _ _ _ _ _ I j a K) as (l & Rl & Fl & _). destruct (cache_hist _ _ _ _ _ Rl q v) as [C1 C2].
  rewrite Forall_forall in Fl. split; intros F; [apply C1 in F|apply C2 in F]; destruct F as (es1 & e & es2 & E & Hd & _);
    (assert (He : In (e_op e) l) by (apply (history_op x j (P j)); rewrite E; apply in_app_iff; right; left; auto)); specialize (Fl _ He);
    unfold delivers, delivers_aux in Hd; destruct (e_op e); try contradiction; destruct Hd as (_ & _ & _ & F); cbn in Fl.
  - apply (sent_was x P m os k false dict); auto. apply (ti_poses _ _ _ _ _ I), Fl.
  - apply (sent_was x P m os k true dict); auto. apply (ti_poses _ _ _ _ _ I), Fl.
Qed.

(** ** Termination *)
Theorem team_status x P m os t j a k s : treach x P m os t -> robot t j a -> mfind N.ltb k (a_team a) = Some s -> once x P m os k (fun b => a_status b = s).
Proof.
  intros R K F. pose proof (tinv _ _ _ _ _ R) as I. destruct (ti_agent _ _ _ _ _ I j a K) as (l & Rl & Fl & _). rewrite Forall_forall in Fl.
  destruct (hist_all _ _ _ _ _ Rl) as (_ & _ & _ & _ & _ & _ & _ & H8 & _). rewrite H8 in F. apply last_some_In in F. destruct F as (e & He & F).
  do 2 apply since_In in He. apply history_op in He. specialize (Fl _ He). unfold status_of in F. destruct (e_op e); try discriminate.
  destruct (N.eqb_spec (st_id s0) k); [|discriminate]. injection F as ->. cbn in Fl. apply (ti_status _ _ _ _ _ I) in Fl. rewrite e0 in Fl. exact Fl.
Qed.
Lemma ready_settled x P m os t k b : treach x P m os t -> robot t k b -> st_ready (a_status b) = true -> once x P m os k (settled x (P k)).
Proof.
  intros R K Hr. destruct (ti_agent _ _ _ _ _ (tinv _ _ _ _ _ R) k b K) as (l & Rl & _ & Hl).
  destruct (ready_hist _ _ _ _ _ Rl Hr) as (es1 & e & es2 & opt & E & Ho & _ & Ei & Ed & Et & st & Es & Hd).
  assert (He : In e (history x k (P k) l)). { apply (since_In renews). rewrite E. apply in_app_iff. right. left. auto. }
  rewrite Forall_forall in Hl. eapply once_mono; [|exact (Hl e He)]. intros a ->. split.
  - unfold optimises in Ho. apply andb_true_iff in Ho. destruct Ho as [Ho _]. unfold initialised in Ho. destruct (a_state (e_pre e)); auto; discriminate.
  - exists opt, (e_post e), (st_change (a_status b)), st. auto 6.
Qed.
Lemma once_once x P m os k (F : Agent S -> Prop) (G : Prop) : once x P m os k F -> (forall os1 os2 t b, os = os1 ++ os2 -> treach x P m os1 t -> robot t k b -> F b -> G) -> G.
Proof. intros (o1 & o2 & t & b & E & R & K & Fb) H. eauto. Qed.
Lemma once_prefix x P m os1 os2 k (F : Agent S -> Prop) : once x P m os1 k F -> once x P m (os1 ++ os2) k F.
Proof. intros (o1 & o2 & t & b & -> & R & K & Fb). exists o1, (o2 ++ os2), t, b. rewrite app_assoc. auto. Qed.
Theorem team_terminate x P m os t j a : treach x P m os t -> robot t j a -> ag_shouldTerminate a = Ok true -> (a_iter a < p_maxit (P j))%N ->
  forall k, (k < p_numRobots (P j))%N -> ag_isRobotActive a k = Ok true -> once x P m os k (settled x (P k)).
Proof.
  intros R K T L k Hk Ha. pose proof (tinv _ _ _ _ _ R) as I. destruct (ti_agent _ _ _ _ _ I j a K) as (l & Rl & Fl & _).
  destruct (term_hist _ _ _ _ _ Rl) as (b & E & Hb). rewrite E in T. injection T as ->. destruct (hist_all _ _ _ _ _ Rl) as (_ & Hp & _ & H4 & _ & _ & _ & H8 & H9).
  destruct (proj1 Hb eq_refl) as [X|[_ X]]; [rewrite <- H4 in X; lia|]. specialize (X k Hk). specialize (H9 k Hk).
  unfold ag_isRobotActive in Ha. rewrite Hp in Ha. destruct (N.leb_spec (p_numRobots (P j)) k); [lia|]. unfold vec_get in Ha. rewrite H9 in Ha. injection Ha as Ha. destruct (X Ha) as (s & F & _ & Hr).
  rewrite <- H8 in F. destruct (team_status _ _ _ _ _ _ _ _ _ R K F) as (o1 & o2 & t' & b & -> & R' & K' & <-). apply once_prefix. eapply ready_settled; eauto.
Qed.
End T.
