(** Team executions (C64). *)
From Coq Require Import List NArith ZArith Bool Arith Lia.
From Verif Require Import Base SMap Num ModelTypes ModelPoseGraph ModelRobust ModelPoses ModelSolver ModelAgent ModelTeam SpecPoseGraph SpecAgent SpecStatus SpecTeam
  ProofsPoseGraph ProofsPGMain ProofsAgent ProofsAgent2 ProofsAgent3 ProofsAgent4 ProofsAgent5 ProofsAgent6 ProofsStatus.
Import ListNotations.
Local Open Scope res_scope.

Section T.
Context {S : Type} `{HS : Num S}.
Implicit Types (a b : Agent S) (x : Ext S) (t : Team S) (o : top S).

Lemma tm_at_Ok t k a : tm_at t k = Ok a <-> robot t k a.
Proof. unfold tm_at, robot. destruct (nth_error _ _); split; congruence. Qed.
Lemma upd_nth {A} (l : list A) k j v : nth_error (list_update l k (fun _ => v)) j =
  if (k =? j)%nat then match nth_error l j with Some _ => Some v | None => None end else nth_error l j.
Proof.
  revert k j; induction l as [|b l IH]; intros [|k] [|j]; cbn; auto. - destruct (_ =? _)%nat; auto.
Qed.
Lemma put_robot t k a j b : robot (tm_put t k a) j b -> (j = k /\ b = a) \/ (j <> k /\ robot t j b).
Proof.
  unfold robot, tm_put. cbn [tm_agents]. rewrite upd_nth. destruct (Nat.eqb_spec (N.to_nat k) (N.to_nat j)) as [E|N].
  - destruct (nth_error _ _); [|discriminate]. intros [= <-]. left. split; auto. lia.
  - right. split; auto. congruence.
Qed.
Lemma put_same t k a b : robot t k b -> robot (tm_put t k a) k a.
Proof. unfold robot, tm_put. cbn [tm_agents]. rewrite upd_nth, Nat.eqb_refl. intros ->. reflexivity. Qed.

Lemma treach_snoc x P m os o t : treach x P m (os ++ [o]) t -> exists t0, treach x P m os t0 /\ tm_step x t0 o = Ok t /\ top_ok P o.
Proof.
  intros [E F]. dres E. unfold tm_run in E. rewrite foldM_app in E. dres E. cbn in E. dres E. injection E as <-.
  apply Forall_app in F. destruct F as [F Fo]. inversion Fo; subst. eexists. split; [|split; eauto]. split; auto. rewrite E0. exact E1.
Qed.
Lemma once_later x P m os os' k F : once x P m os k F -> once x P m (os ++ os') k F.
Proof. intros (o1 & o2 & t & a & -> & R). exists o1, (o2 ++ os'), t, a. rewrite app_assoc. auto. Qed.
Lemma once_now x P m os t k a (F : Agent S -> Prop) : treach x P m os t -> robot t k a -> F a -> once x P m os k F.
Proof. intros R K Fa. exists os, [], t, a. rewrite app_nil_r. auto. Qed.
Lemma once_mono x P m os k (F G : Agent S -> Prop) : (forall a, F a -> G a) -> once x P m os k F -> once x P m os k G.
Proof. intros FG (o1 & o2 & t & a & E & R & K & Fa). exists o1, o2, t, a. auto 6. Qed.

(** Calls that came over the network. *)
Definition traced t (o : aop S) : Prop :=
  match o with
  | AUpdNbr k D => In (mkPoseMsg k false D) (tm_poses t)
  | AUpdAux k D => In (mkPoseMsg k true D) (tm_poses t)
  | AStatus s => In s (tm_status t)
  | _ => True
  end.
Definition sent x P m os (msg : PoseMsg S) : Prop :=
  once x P m os (pm_from msg) (fun b => a_id b = pm_from msg /\ a_params b = P (pm_from msg) /\ a_state b = INITIALIZED /\
    exists sel, dict_spec b (pa_X (if pm_aux msg then a_Y b else a_X b)) sel (pm_dict msg)).
Record TInv x P m os t : Prop := {
  ti_len : length (tm_agents t) = N.to_nat m;
  ti_agent : forall k a, robot t k a -> exists l, areach x k (P k) l a /\ Forall (traced t) l /\
    Forall (fun e => once x P m os k (fun b => b = e_pre e)) (history x k (P k) l);
  ti_poses : forall msg, In msg (tm_poses t) -> sent x P m os msg;
  ti_status : forall s, In s (tm_status t) -> once x P m os (st_id s) (fun b => a_status b = s) }.

Lemma areach_add x id p l a (o : aop S) a' : areach x id p l a -> aop_ok o -> ag_step x a o = Ok a' ->
  areach x id p (l ++ [o]) a' /\ history x id p (l ++ [o]) = history x id p l ++ [mkEv a o a'].
Proof.
  intros [E F] Ho Es. dres E. assert (R : areach x id p (l ++ [o]) a').
  { split; [|apply Forall_app; auto]. rewrite E0. cbn. unfold ag_run. rewrite foldM_app. unfold ag_run in E. rewrite E. cbn. rewrite Es. reflexivity. }
  split; auto. unfold history. rewrite E0. apply events_snoc; auto.
Qed.
Lemma traced_more t t' (o : aop S) : (forall v, In v (tm_poses t) -> In v (tm_poses t')) -> (forall v, In v (tm_status t) -> In v (tm_status t')) -> traced t o -> traced t' o.
Proof. intros H1 H2. destruct o; cbn; auto. Qed.

(** One call of one robot. *)
Lemma inv_call x P m os o t k a oc a' t' : TInv x P m os t -> treach x P m os t -> robot t k a -> ag_step x a oc = Ok a' -> aop_ok oc -> traced t oc ->
  tm_agents t' = tm_agents (tm_put t k a') -> (forall v, In v (tm_poses t) -> In v (tm_poses t')) -> (forall v, In v (tm_status t) -> In v (tm_status t')) ->
  length (tm_agents t') = N.to_nat m /\
  forall j b, robot t' j b -> exists l, areach x j (P j) l b /\ Forall (traced t') l /\
    Forall (fun e => once x P m (os ++ [o]) j (fun b => b = e_pre e)) (history x j (P j) l).
Proof.
  intros I R K Es Ho Ht Ea Hp Hs. split; [rewrite Ea; cbn [tm_put tm_agents]; rewrite list_update_length; apply I|].
  intros j b Kb. assert (Kb' : robot (tm_put t k a') j b) by (unfold robot in *; rewrite <- Ea; exact Kb). apply put_robot in Kb'.
  destruct Kb' as [[-> ->]|[N Kb']].
  - destruct (ti_agent _ _ _ _ _ I k a K) as (l & Rl & Fl & Hl). destruct (areach_add _ _ _ _ _ _ _ Rl Ho Es) as [R' E']. exists (l ++ [oc]). split; auto. split.
    + apply Forall_app. split; [eapply Forall_impl; [|exact Fl]; intros; apply (traced_more t); auto|]. constructor; auto. apply (traced_more t); auto.
    + rewrite E'. apply Forall_app. split; [eapply Forall_impl; [|exact Hl]; intros e; apply once_later|]. constructor; auto. cbn [e_pre]. apply once_later.
      apply (once_now _ _ _ _ t k a); auto.
  - destruct (ti_agent _ _ _ _ _ I j b Kb') as (l & Rl & Fl & Hl). exists l. split; auto. split.
    + eapply Forall_impl; [|exact Fl]; intros; apply (traced_more t); auto.
    + eapply Forall_impl; [|exact Hl]; intros e; apply once_later.
Qed.

Lemma robot_id_of x P m os t k a : TInv x P m os t -> robot t k a -> a_id a = k /\ a_params a = P k /\ AInv a.
Proof.
  intros I K. destruct (ti_agent _ _ _ _ _ I k a K) as (l & R & _). destruct (hist_all _ _ _ _ _ R) as (A & B & _). split; auto. split; auto. eapply areach_inv; eauto.
Qed.
Lemma get_spec x P m os t k a aux to D : TInv x P m os t -> robot t k a -> (aux = true -> p_accel (P k) = true) -> tm_get aux to a = Ok (Some D) ->
  a_state a = INITIALIZED /\ exists sel, dict_spec a (pa_X (if aux then a_Y a else a_X a)) sel D.
Proof.
  intros I K Ha E. destruct (ti_agent _ _ _ _ _ I k a K) as (l & R & _).
  assert (Hi : a_state a = INITIALIZED).
  { apply is_init_eq. unfold tm_get, ag_getSharedPoseDict, ag_getSharedPoseDictWithNeighbor, ag_getAuxSharedPoseDict, ag_getAuxSharedPoseDictWithNeighbor in E.
    destruct aux, to; destruct (is_init a); auto; cbn in E; try discriminate. destruct (p_accel (a_params a)); discriminate. }
  split; auto. unfold tm_get in E. destruct aux.
  - destruct (c33_aux _ _ _ _ _ R Hi (Ha eq_refl)) as (_ & (D1 & E1 & S1) & W). destruct to as [q|].
    + destruct (W q) as (D2 & E2 & S2). rewrite E2 in E. injection E as <-. eauto.
    + rewrite E1 in E. injection E as <-. eauto.
  - destruct (c33_estimate _ _ _ _ _ R) as (_ & _ & _ & G); [congruence|]. destruct (G Hi) as (_ & _ & (D1 & E1 & S1) & W). destruct to as [q|].
    + destruct (W q) as (D2 & E2 & S2). rewrite E2 in E. injection E as <-. eauto.
    + rewrite E1 in E. injection E as <-. eauto.
Qed.

Lemma inv_weaken x P m os o t : TInv x P m os t -> TInv x P m (os ++ [o]) t.
Proof.
  intros I. constructor.
  - apply I.
  - intros k a K. destruct (ti_agent _ _ _ _ _ I k a K) as (l & R & F & Hl). exists l. split; auto. split; auto. eapply Forall_impl; [|exact Hl]. intros e. apply once_later.
  - intros msg Hm. apply once_later. apply (ti_poses _ _ _ _ _ I); auto.
  - intros s Hs. apply once_later. apply (ti_status _ _ _ _ _ I); auto.
Qed.
Lemma new_nth x P m t k a : tm_new x P m = Ok t -> robot t k a -> newAgent x k (P k) = Ok a.
Proof.
  unfold tm_new. intros E K. dres E. injection E as <-. unfold robot in K. cbn in K. revert K. 
  assert (G : forall n s l, mapM (fun k => newAgent x (N.of_nat k) (P (N.of_nat k))) (seq s n) = Ok l -> forall i b, nth_error l i = Some b -> newAgent x (N.of_nat (s + i)) (P (N.of_nat (s + i))) = Ok b).
  { induction n as [|n IH]; cbn; intros s l El i b Eb; [injection El as <-; destruct i; discriminate|]. dres El. injection El as <-.
    destruct i as [|i]; cbn in Eb; [injection Eb as <-; rewrite Nat.add_0_r; auto|]. rewrite Nat.add_succ_r. apply (IH (Datatypes.S s) _ E1 i b Eb). }
  intros K. apply (G _ _ _ E0) in K. cbn in K. rewrite N2Nat.id in K. exact K.
Qed.
Lemma mapM_len {A B} (f : A -> res B) l : forall l', mapM f l = Ok l' -> length l' = length l.
Proof. induction l as [|u l IH]; cbn; intros l' E; [injection E as <-; auto|]. dres E. injection E as <-. cbn. f_equal. auto. Qed.
Lemma tinv x P m os : forall t, treach x P m os t -> TInv x P m os t.
Proof.
  induction os as [|o os IH] using rev_ind; intros t R.
  - destruct R as [E _]. dres E. cbn in E. injection E as <-. pose proof E0 as E1. unfold tm_new in E1. dres E1. injection E1 as Ey. constructor.
    + rewrite <- Ey. cbn. pose proof (mapM_len _ _ _ E) as L. rewrite seq_length in L. auto.
    + intros k a K. exists []. pose proof (new_nth _ _ _ _ _ _ E0 K) as En. split; [split; [rewrite En; reflexivity|constructor]|]. split; [constructor|]. unfold history. rewrite En. constructor.
    + rewrite <- Ey. intros ? [].
    + rewrite <- Ey. intros ? [].
  - pose proof R as R'. apply treach_snoc in R. destruct R as (t0 & R0 & E & Ho). specialize (IH _ R0). rename IH into I.
    destruct o as [k oc|k aux to|k|j i|j i]; cbn [tm_step] in E.
    + dres E. injection E as <-. apply tm_at_Ok in E0. assert (Hc : aop_ok oc /\ traced t0 oc) by (destruct oc; cbn in *; tauto).
      destruct (inv_call x P m os (TCall k oc) t0 k y oc y0 (tm_put t0 k y0) I R0 E0 E1 (proj1 Hc) (proj2 Hc) eq_refl) as [L A]; auto. constructor; auto.
      * intros msg Hm. apply once_later, (ti_poses _ _ _ _ _ I), Hm.
      * intros s Hs. apply once_later, (ti_status _ _ _ _ _ I), Hs.
    + dres E. apply tm_at_Ok in E0. destruct y0 as [D|]; [|injection E as <-; apply inv_weaken; auto]. injection E as <-. cbn in Ho.
      destruct (get_spec _ _ _ _ _ _ _ _ _ _ I E0 Ho E1) as [Hi (sel & SD)]. destruct (robot_id_of _ _ _ _ _ _ _ I E0) as (Hid & Hpar & _).
      constructor.
      * apply I.
      * intros q b K. destruct (ti_agent _ _ _ _ _ I q b K) as (l & Rl & Fl & Hl). exists l. split; auto. split.
        -- eapply Forall_impl; [|exact Fl]. intros u. apply traced_more; cbn; intros; rewrite ?in_app_iff; auto.
        -- eapply Forall_impl; [|exact Hl]. intros e. apply once_later.
      * cbn [tm_poses]. intros msg Hm. apply in_app_iff in Hm. destruct Hm as [Hm|[<-|[]]]; [apply once_later, (ti_poses _ _ _ _ _ I), Hm|].
        apply once_later. unfold sent. cbn [pm_from pm_aux pm_dict]. rewrite Hid. apply (once_now _ _ _ _ t0 k y); auto. split; auto. split; auto. split; auto. eauto.
      * intros s Hs. apply once_later, (ti_status _ _ _ _ _ I), Hs.
    + dres E. apply tm_at_Ok in E0. injection E as Et. set (t' := mkTeam _ _ _) in Et. subst t.
      destruct (inv_call x P m os (TSendStatus k) t0 k y AGetStatus y0 t' I R0 E0 E1 Logic.I Logic.I eq_refl) as [L A]; auto.
      { unfold t'. cbn. intros. apply in_app_iff. auto. }
      constructor; auto.
      * intros msg Hm. apply once_later, (ti_poses _ _ _ _ _ I), Hm.
      * unfold t' at 1. cbn [tm_status tm_put]. intros s Hs. apply in_app_iff in Hs. destruct Hs as [Hs|[<-|[]]]; [apply once_later, (ti_status _ _ _ _ _ I), Hs|].
        assert (K : robot t' k y0) by exact (put_same t0 k y0 y E0). cbn in E1. injection E1 as <-.
        assert (Eid : st_id (a_status (ag_getStatus y)) = k). { destruct (robot_id_of _ _ _ _ _ _ _ I E0) as (Hid & _). cbn. exact Hid. }
        rewrite Eid. apply (once_now _ _ _ _ t' k (ag_getStatus y)); auto.
    + destruct (nth_error (tm_poses t0) i) as [msg|] eqn:Em; [|discriminate]. dres E. apply tm_at_Ok in E0. injection E as <-.
      pose proof (nth_error_In _ _ Em) as Hm. destruct (ti_poses _ _ _ _ _ I msg Hm) as (o1 & o2 & t1 & b & _ & _ & _ & _ & _ & _ & sel & [Hsort _]).
      assert (Hc : aop_ok (if pm_aux msg then AUpdAux (pm_from msg) (pm_dict msg) else AUpdNbr (pm_from msg) (pm_dict msg)) /\
                   traced t0 (if pm_aux msg then AUpdAux (pm_from msg) (pm_dict msg) else AUpdNbr (pm_from msg) (pm_dict msg))).
      { destruct msg as [f ax D]. cbn [pm_aux pm_from pm_dict] in *. destruct ax; cbn; auto. }
      destruct (inv_call x P m os (TPoses j i) t0 j y _ y0 (tm_put t0 j y0) I R0 E0 E1 (proj1 Hc) (proj2 Hc) eq_refl) as [L A]; auto. constructor; auto.
      * intros v Hv. apply once_later, (ti_poses _ _ _ _ _ I), Hv.
      * intros s Hs. apply once_later, (ti_status _ _ _ _ _ I), Hs.
    + destruct (nth_error (tm_status t0) i) as [s0|] eqn:Em; [|discriminate]. dres E. apply tm_at_Ok in E0. injection E as <-.
      destruct (inv_call x P m os (TStatus j i) t0 j y (AStatus s0) y0 (tm_put t0 j y0) I R0 E0 E1 Logic.I (nth_error_In _ _ Em) eq_refl) as [L A]; auto. constructor; auto.
      * intros v Hv. apply once_later, (ti_poses _ _ _ _ _ I), Hv.
      * intros s Hs. apply once_later, (ti_status _ _ _ _ _ I), Hs.
Qed.
End T.
