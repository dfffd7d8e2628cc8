(** The pose graph against the abstract history. *)
From Coq Require Import List NArith Bool Lia Permutation.
From Verif Require Import Base SMap Num ModelTypes ModelPoseGraph SpecPoseGraph SpecPGHist ProofsPoseGraph.
Import ListNotations.
Local Open Scope N_scope.
Local Open Scope res_scope.

Section PG.
Context {S : Type} `{Num S}.
Implicit Types (g : PoseGraph S) (m : Meas S) (L : list (Meas S)).

Lemma same_edgeb_eq m m' : same_edgeb m m' = true <->
  mr1 m = mr1 m' /\ mr2 m = mr2 m' /\ mp1 m = mp1 m' /\ mp2 m = mp2 m'.
Proof. unfold same_edgeb. rewrite !andb_true_iff, !N.eqb_eq. tauto. Qed.

Lemma same_edgeb_refl m : same_edgeb m m = true.
Proof. apply same_edgeb_eq; auto. Qed.

Lemma same_edgeb_sym m m' : same_edgeb m m' = same_edgeb m' m.
Proof. unfold same_edgeb. rewrite (N.eqb_sym (mr1 m)), (N.eqb_sym (mr2 m)), (N.eqb_sym (mp1 m)), (N.eqb_sym (mp2 m)). reflexivity. Qed.

Lemma same_edgeb_trans m1 m2 m3 : same_edgeb m1 m2 = true -> same_edgeb m1 m3 = same_edgeb m2 m3.
Proof.
  intros E. apply same_edgeb_eq in E. destruct E as (A & B & C & D).
  unfold same_edgeb. rewrite A, B, C, D. reflexivity.
Qed.

Definition seen L m : bool := existsb (fun m' => same_edgeb m' m) L.

Lemma firsts_in L x : In x (firsts L) -> In x L.
Proof.
  induction L as [|a L IH]; simpl; auto. intros [->|Hx]; auto.
  apply filter_In in Hx. right. apply IH. tauto.
Qed.

Lemma firsts_seen L m : seen (firsts L) m = seen L m.
Proof.
  unfold seen. induction L as [|a L IH]; simpl; auto.
  rewrite <- IH. destruct (same_edgeb a m) eqn:E; auto. simpl.
  clear IH. induction (firsts L) as [|b F IHF]; simpl; auto.
  destruct (same_edgeb a b) eqn:E2; simpl.
  - rewrite IHF. rewrite <- (same_edgeb_trans _ _ m E2), E. reflexivity.
  - rewrite IHF. reflexivity.
Qed.

Lemma firsts_snoc L m : firsts (L ++ [m]) = if seen L m then firsts L else firsts L ++ [m].
Proof.
  unfold seen. induction L as [|a L IH]; simpl; auto.
  rewrite IH. destruct (same_edgeb a m) eqn:E; simpl.
  - destruct (existsb _ L); auto. rewrite filter_app. simpl. rewrite E. simpl.
    rewrite app_nil_r. reflexivity.
  - destruct (existsb _ L); auto. rewrite filter_app. simpl. rewrite E. reflexivity.
Qed.

Lemma kept_snoc id L m :
  kept id (L ++ [m]) =
  if relevantb id m then (if seen (kept id L) m then kept id L else kept id L ++ [m]) else kept id L.
Proof.
  unfold kept. rewrite filter_app. simpl. destruct (relevantb id m).
  - rewrite firsts_snoc, firsts_seen. reflexivity.
  - rewrite app_nil_r. reflexivity.
Qed.

Lemma kept_relevant id L m : In m (kept id L) -> relevantb id m = true.
Proof. intros Hm. apply firsts_in, filter_In in Hm. tauto. Qed.

Lemma kept_incl id L m : In m (kept id L) -> In m L.
Proof. intros Hm. apply firsts_in, filter_In in Hm. tauto. Qed.

Lemma classes id m : relevantb id m = true ->
  (is_odom id m = true /\ is_priv id m = false /\ is_shared id m = false) \/
  (is_odom id m = false /\ is_priv id m = true /\ is_shared id m = false) \/
  (is_odom id m = false /\ is_priv id m = false /\ is_shared id m = true).
Proof.
  unfold relevantb, is_odom, is_priv, is_shared.
  destruct (mr1 m =? id), (mr2 m =? id), (mp2 m =? mp1 m + 1); simpl; intuition discriminate.
Qed.

Lemma classes_irrelevant id m : relevantb id m = false ->
  is_odom id m = false /\ is_priv id m = false /\ is_shared id m = false.
Proof.
  unfold relevantb, is_odom, is_priv, is_shared.
  destruct (mr1 m =? id), (mr2 m =? id); simpl; intuition discriminate.
Qed.

Lemma hasMeasurement_seen g m : pg_wf g -> ids_ok m ->
  hasMeasurement g (meas_src m) (meas_dst m) = seen (measurements g) m.
Proof.
  intros W Hi. apply eq_true_iff_eq.
  pose proof (hasMeasurement_edge g (meas_edge m) W) as E. simpl in E. rewrite E. clear E.
  unfold seen. rewrite existsb_exists. split; intros [x [Hx He]]; exists x; split; auto.
  - pose proof (wf_ids _ W _ Hx) as Hi'. rewrite !meas_edge_small in He by auto.
    inversion He. apply same_edgeb_eq. auto.
  - apply same_edgeb_eq in He. destruct He as (A & B & C & D).
    unfold meas_edge, meas_src, meas_dst. rewrite A, B, C, D. reflexivity.
Qed.

(** The exact effect of one insertion on the three lists. *)
Lemma add_effect g m g' : ids_ok m -> addMeasurement g m = Ok g' ->
  let new := relevantb (pg_id g) m && negb (hasMeasurement g (meas_src m) (meas_dst m)) in
  let id := pg_id g in
  pg_id g' = id /\ pg_d g' = pg_d g /\ pg_r g' = pg_r g /\
  pg_odom g' = (if new && is_odom id m then pg_odom g ++ [m] else pg_odom g) /\
  pg_priv g' = (if new && is_priv id m then pg_priv g ++ [m] else pg_priv g) /\
  pg_shared g' = (if new && is_shared id m then pg_shared g ++ [m] else pg_shared g) /\
  pg_active g' = (if new && is_shared id m then mset N.ltb (other_robot id m) true (pg_active g) else pg_active g).
Proof.
  intros Hi HA. pose proof Hi as (A & B & C & D).
  unfold addMeasurement in HA. rewrite u64_small in HA by lia.
  unfold relevantb, is_odom, is_priv, is_shared, other_robot.
  destruct (mr1 m =? pg_id g) eqn:R1, (mr2 m =? pg_id g) eqn:R2; simpl in HA |- *.
  - rewrite (N.eqb_sym (mp2 m)). destruct (mp1 m + 1 =? mp2 m) eqn:P; simpl.
    + unfold addOdometry in HA. destruct (hasMeasurement _ _ _); [inversion HA; subst; simpl; auto 10|].
      repeat (apply check_Ok in HA; destruct HA as [? HA]). inversion HA; subst; simpl. auto 10.
    + unfold addPrivateLoopClosure in HA. destruct (hasMeasurement _ _ _); [inversion HA; subst; simpl; auto 10|].
      repeat (apply check_Ok in HA; destruct HA as [? HA]). inversion HA; subst; simpl. auto 10.
  - unfold addSharedLoopClosure in HA. destruct (hasMeasurement _ _ _); [inversion HA; subst; simpl; auto 10|].
    rewrite R1, R2 in HA. simpl in HA. apply check_Ok in HA; destruct HA as [? HA].
    inversion HA; subst; simpl. rewrite u32_small by lia. auto 10.
  - unfold addSharedLoopClosure in HA. destruct (hasMeasurement _ _ _); [inversion HA; subst; simpl; auto 10|].
    rewrite R1, R2 in HA. simpl in HA. apply check_Ok in HA; destruct HA as [? HA].
    inversion HA; subst; simpl. rewrite u32_small by lia. auto 10.
  - inversion HA; subst; auto 10.
Qed.

(** Insertions of well-shaped measurements never abort. *)
Lemma add_total g m : ids_ok m -> shape_ok (pg_d g) m -> exists g', addMeasurement g m = Ok g'.
Proof.
  intros Hi Hs. pose proof Hi as (A & B & C & D). apply dims_ok_shape in Hs.
  unfold addMeasurement. rewrite u64_small by lia.
  destruct (mr1 m =? pg_id g) eqn:R1, (mr2 m =? pg_id g) eqn:R2; simpl.
  - destruct (mp1 m + 1 =? mp2 m) eqn:P.
    + unfold addOdometry. destruct (hasMeasurement _ _ _); [eauto|].
      rewrite R1, R2, u64_small, P, Hs by lia. simpl. eauto.
    + unfold addPrivateLoopClosure. destruct (hasMeasurement _ _ _); [eauto|].
      rewrite R1, R2, Hs. simpl. eauto.
  - unfold addSharedLoopClosure. destruct (hasMeasurement _ _ _); [eauto|].
    rewrite R1, R2, Hs. simpl. eauto.
  - unfold addSharedLoopClosure. destruct (hasMeasurement _ _ _); [eauto|].
    rewrite R1, R2, Hs. simpl. eauto.
  - eauto.
Qed.

(** Insertion of a badly shaped, relevant, new measurement aborts. *)
Lemma add_abort g m : ids_ok m -> relevantb (pg_id g) m = true ->
  hasMeasurement g (meas_src m) (meas_dst m) = false -> ~ shape_ok (pg_d g) m ->
  addMeasurement g m = Abort.
Proof.
  intros Hi Hr Hh Hs. pose proof Hi as (A & B & C & D).
  assert (Hd : dims_ok g m = false).
  { destruct (dims_ok g m) eqn:E; auto. apply dims_ok_shape in E. tauto. }
  unfold relevantb in Hr. unfold addMeasurement. rewrite u64_small by lia.
  unfold addOdometry, addPrivateLoopClosure, addSharedLoopClosure. rewrite Hh, Hd.
  destruct (mr1 m =? pg_id g) eqn:R1, (mr2 m =? pg_id g) eqn:R2; simpl in *; auto; [|discriminate].
  rewrite u64_small by lia. destruct (mp1 m + 1 =? mp2 m); reflexivity.
Qed.

(** Refinement relation between a graph and a history. *)
Record refines g (h : Hist S) : Prop := {
  rf_odom : map strip (pg_odom g) = map strip (filter (is_odom (pg_id g)) (kept (pg_id g) (h_in h)));
  rf_priv : map strip (pg_priv g) = map strip (filter (is_priv (pg_id g)) (kept (pg_id g) (h_in h)));
  rf_shared : map strip (pg_shared g) = map strip (filter (is_shared (pg_id g)) (kept (pg_id g) (h_in h)));
  rf_active : forall k b, mfind N.ltb k (pg_active g) = Some b -> b = h_act h k }.

Lemma strip_edge m m' x : strip m = strip m' -> same_edgeb m x = same_edgeb m' x.
Proof.
  intros E. apply strip_facts in E. destruct E as (A & B & C & D & _).
  unfold same_edgeb. rewrite A, B, C, D. reflexivity.
Qed.

Lemma seen_iff L m : seen L m = true <-> exists x, In x L /\ same_edgeb x m = true.
Proof. apply existsb_exists. Qed.

Lemma refines_seen g h m : refines g h -> seen (measurements g) m = seen (kept (pg_id g) (h_in h)) m.
Proof.
  intros R. apply eq_true_iff_eq. rewrite !seen_iff. split; intros [x [Hx E]].
  - unfold measurements in Hx. rewrite !in_app_iff in Hx.
    assert (exists y, In y (kept (pg_id g) (h_in h)) /\ strip y = strip x) as [y [Hy Es]].
    { destruct Hx as [Hx|[Hx|Hx]].
      - destruct (map_eq_in _ _ _ (rf_odom _ _ R) _ Hx) as [y [Hy Es]]. apply filter_In in Hy.
        exists y; tauto.
      - destruct (map_eq_in _ _ _ (rf_priv _ _ R) _ Hx) as [y [Hy Es]]. apply filter_In in Hy.
        exists y; tauto.
      - destruct (map_eq_in _ _ _ (rf_shared _ _ R) _ Hx) as [y [Hy Es]]. apply filter_In in Hy.
        exists y; tauto. }
    exists y. split; auto. rewrite (strip_edge _ _ m Es). auto.
  - pose proof (kept_relevant _ _ _ Hx) as Hr. unfold measurements.
    assert (exists y, In y (pg_odom g ++ pg_priv g ++ pg_shared g) /\ strip y = strip x) as [y [Hy Es]].
    { destruct (classes _ _ Hr) as [(C & _ & _)|[(_ & C & _)|(_ & _ & C)]].
      - destruct (map_eq_in _ _ _ (eq_sym (rf_odom _ _ R)) x) as [y [Hy Es]]; [apply filter_In; auto|].
        exists y. rewrite !in_app_iff. auto.
      - destruct (map_eq_in _ _ _ (eq_sym (rf_priv _ _ R)) x) as [y [Hy Es]]; [apply filter_In; auto|].
        exists y. rewrite !in_app_iff. auto.
      - destruct (map_eq_in _ _ _ (eq_sym (rf_shared _ _ R)) x) as [y [Hy Es]]; [apply filter_In; auto|].
        exists y. rewrite !in_app_iff. auto. }
    exists y. split; auto. rewrite (strip_edge _ _ m Es). auto.
Qed.

Lemma filter_snoc_if {A} (f : A -> bool) l x (c : bool) :
  filter f (if c then l ++ [x] else l) = if c && f x then filter f l ++ [x] else filter f l.
Proof.
  destruct c; simpl; auto. rewrite filter_app. simpl. destruct (f x); auto. apply app_nil_r.
Qed.

Lemma kept_snoc' id L m :
  kept id (L ++ [m]) =
  if relevantb id m && negb (seen (kept id L) m) then kept id L ++ [m] else kept id L.
Proof. rewrite kept_snoc. destruct (relevantb id m); simpl; auto. destruct (seen _ _); auto. Qed.

Lemma is_shared_relevant id m : is_shared id m = true -> relevantb id m = true.
Proof.
  unfold is_shared, relevantb. destruct (mr1 m =? id), (mr2 m =? id); simpl; auto.
Qed.

Lemma refines_add g h m g' : pg_wf g -> ids_ok m -> refines g h ->
  addMeasurement g m = Ok g' -> refines g' (h_add (pg_id g) h m).
Proof.
  intros W Hi R HA. pose proof (add_effect _ _ _ Hi HA) as (E1 & E2 & E3 & E4 & E5 & E6 & E7).
  cbn zeta in *. rewrite (hasMeasurement_seen _ _ W Hi), (refines_seen _ _ _ R) in *.
  unfold h_add.
  constructor; cbn [h_in h_act]; rewrite ?E1, ?E4, ?E5, ?E6, ?kept_snoc', ?filter_snoc_if.
  - destruct (_ && is_odom _ _); auto; [rewrite !map_app; f_equal|]; apply R.
  - destruct (_ && is_priv _ _); auto; [rewrite !map_app; f_equal|]; apply R.
  - destruct (_ && is_shared _ _); auto; [rewrite !map_app; f_equal|]; apply R.
  - rewrite E7. fold (seen (kept (pg_id g) (h_in h)) m).
    destruct (is_shared (pg_id g) m) eqn:Hs.
    + rewrite (is_shared_relevant _ _ Hs). simpl.
      destruct (seen _ _); simpl; [apply R|].
      intros k b. unfold h_set. destruct (N.eqb_spec k (other_robot (pg_id g) m)).
      * subst k. rewrite (mfind_mset_eq _ Nltb_total). congruence.
      * rewrite (mfind_mset_neq _ Nltb_total) by auto. apply R.
    + rewrite andb_false_r. simpl. apply R.
Qed.

Lemma refines_empty g : refines (pg_empty g) h_empty.
Proof. constructor; try reflexivity. intros k b E. discriminate. Qed.

Lemma refines_setMeas ms : forall g h g', pg_wf g -> Forall ids_ok ms -> refines g h ->
  foldM addMeasurement g ms = Ok g' -> refines g' (fold_left (h_add (pg_id g)) ms h) /\ pg_id g' = pg_id g.
Proof.
  induction ms as [|m ms IH]; intros g h g' W HF R E; simpl in *.
  - inversion E; subst; auto.
  - apply bind_Ok in E. destruct E as [g1 [E1 E2]]. inversion HF; subst.
    pose proof (add_effect _ _ _ H2 E1) as (Hid & _).
    destruct (IH g1 (h_add (pg_id g) h m) g') as [R' I']; auto.
    + eapply addMeasurement_wf; eauto.
    + eapply refines_add; eauto.
    + rewrite Hid in *. auto.
Qed.

(** Changing only fields outside the relation. *)
Lemma refines_irrelevant g g' h :
  pg_id g' = pg_id g -> map strip (pg_odom g') = map strip (pg_odom g) ->
  map strip (pg_priv g') = map strip (pg_priv g) ->
  map strip (pg_shared g') = map strip (pg_shared g) -> pg_active g' = pg_active g ->
  refines g h -> refines g' h.
Proof.
  intros E1 E2 E3 E4 E5 R. constructor; rewrite ?E1, ?E2, ?E3, ?E4, ?E5; apply R.
Qed.

Definition core_eq g g' : Prop :=
  pg_id g' = pg_id g /\ pg_odom g' = pg_odom g /\ pg_priv g' = pg_priv g /\ pg_shared g' = pg_shared g
  /\ pg_active g' = pg_active g /\ pg_n g' = pg_n g /\ pg_d g' = pg_d g /\ pg_r g' = pg_r g
  /\ pg_nposes g' = pg_nposes g /\ pg_nbrs g' = pg_nbrs g /\ pg_priors g' = pg_priors g
  /\ pg_useinact g' = pg_useinact g /\ pg_index g' = pg_index g /\ pg_lpub g' = pg_lpub g
  /\ pg_npub g' = pg_npub g.

Lemma core_refl g : core_eq g g.
Proof. repeat split. Qed.

Lemma core_refines g g' h : core_eq g g' -> refines g h -> refines g' h.
Proof.
  intros (A1 & A2 & A3 & A4 & A5 & _). apply refines_irrelevant; congruence.
Qed.

Lemma core_trans g1 g2 g3 : core_eq g1 g2 -> core_eq g2 g3 -> core_eq g1 g3.
Proof. unfold core_eq. intuition congruence. Qed.

Lemma constructQ_core g g' b : constructQ g = Ok (g', b) -> core_eq g g'.
Proof. intros E. destruct (constructQ_fields _ _ _ E) as [->|[Q ->]]; repeat split. Qed.
Lemma constructG_core g g' b : constructG g = Ok (g', b) -> core_eq g g'.
Proof. intros E. destruct (constructG_fields _ _ _ E) as [->|[Q ->]]; repeat split. Qed.

Lemma constructData_core g g' b : constructDataMatrices g = Ok (g', b) -> core_eq g g'.
Proof.
  intros E. unfold constructDataMatrices in E.
  apply bind_Ok in E. destruct E as [[g1 b1] [E1 E]].
  assert (W1 : core_eq g g1).
  { destruct (pg_Q g); [inversion E1; subst; apply core_refl|]. eapply constructQ_core; eauto. }
  destruct b1; simpl in E; [|inversion E; subst; auto].
  apply bind_Ok in E. destruct E as [[g2 b2] [E2 E]]. inversion E; subst.
  eapply core_trans; [exact W1|].
  destruct (pg_G g1); [inversion E2; subst; apply core_refl|]. eapply constructG_core; eauto.
Qed.
Lemma quadratic_core g g' Q : quadraticMatrix g = Ok (g', Q) -> core_eq g g'.
Proof.
  intros E. unfold quadraticMatrix in E. apply bind_Ok in E. destruct E as [[g1 b1] [E1 E]].
  assert (W1 : core_eq g g1).
  { destruct (pg_Q g); [inversion E1; subst; apply core_refl|]. eapply constructQ_core; eauto. }
  destruct (pg_Q g1); inversion E; subst; auto.
Qed.
Lemma linear_core g g' Q : linearMatrix g = Ok (g', Q) -> core_eq g g'.
Proof.
  intros E. unfold linearMatrix in E. apply bind_Ok in E. destruct E as [[g1 b1] [E1 E]].
  assert (W1 : core_eq g g1).
  { destruct (pg_G g); [inversion E1; subst; apply core_refl|]. eapply constructG_core; eauto. }
  destruct (pg_G g1); inversion E; subst; auto.
Qed.
Lemma precon_core c g g' b : hasPreconditioner c g = Ok (g', b) -> core_eq g g'.
Proof.
  intros E. unfold hasPreconditioner in E. apply bind_Ok in E. destruct E as [[g1 b1] [E1 E]].
  inversion E; subst. destruct (pg_precon g); [inversion E1; subst; apply core_refl|].
  unfold constructPreconditioner in E1. apply bind_Ok in E1. destruct E1 as [[g2 Q] [E1 E2]].
  pose proof (quadratic_core _ _ _ E1). destruct (c (precon_matrix Q)); inversion E2; subst; auto.
Qed.

Lemma refines_nbr g h k : pg_wf g -> refines g h ->
  hasNeighbor g k = h_nbr (pg_id g) h k.
Proof.
  intros W R. apply eq_true_iff_eq. unfold hasNeighbor, h_nbr.
  rewrite (smem_In _ Nltb_total _ _ (wf_nbrs_sorted _ W)), (wf_nbrs _ W), existsb_exists.
  split; intros [m [Hm E]].
  - destruct (map_eq_in _ _ _ (rf_shared _ _ R) _ Hm) as [y [Hy Es]]. apply filter_In in Hy.
    destruct Hy as [Hy1 Hy2]. exists y. split; auto. rewrite Hy2. simpl.
    apply strip_facts in Es. destruct Es as (A & B & _). apply N.eqb_eq.
    unfold other_robot in *. rewrite A, B. auto.
  - apply andb_true_iff in E. destruct E as [E1 E2]. apply N.eqb_eq in E2.
    destruct (map_eq_in _ _ _ (eq_sym (rf_shared _ _ R)) m) as [y [Hy Es]]; [apply filter_In; auto|].
    exists y. split; auto. apply strip_facts in Es. destruct Es as (A & B & _).
    unfold other_robot in *. rewrite A, B. auto.
Qed.

Lemma step_refines g o g' h : op_ok o -> pg_wf g -> refines g h -> pg_step g o = Ok g' ->
  refines g' (h_step (pg_id g) h o) /\ pg_id g' = pg_id g.
Proof.
  intros Ho W R E. destruct o; simpl in Ho, E |- *.
  - split; [eapply refines_add; eauto|]. apply (add_effect _ _ _ Ho E).
  - unfold setMeasurements in E. destruct (refines_setMeas ms (pg_empty g) h_empty g') as [A B]; auto.
    + apply pg_empty_wf.
    + apply refines_empty.
  - inversion E; subst. split; [apply refines_empty|reflexivity].
  - inversion E; subst. split; [|reflexivity]. constructor; try apply R. cbn.
    intros k b. rewrite fold_mset_find.
    destruct (_ || _) eqn:Em; [congruence|]. intros F. exfalso.
    apply orb_false_iff in Em. destruct Em as [_ Em].
    apply (mfind_In _ Nltb_total) in F; [|apply W]. apply (in_map fst) in F. simpl in F.
    apply (wf_active _ W) in F.
    assert (existsb (N.eqb k) (pg_nbrs g) = true).
    { apply existsb_exists. exists k. split; auto. apply N.eqb_refl. }
    congruence.
  - inversion E; subst. split; [|reflexivity]. eapply refines_irrelevant; [..|exact R]; reflexivity.
  - inversion E; subst. split; [|reflexivity]. eapply refines_irrelevant; [..|exact R]; reflexivity.
  - inversion E; subst. split; [|reflexivity]. eapply refines_irrelevant; [..|exact R]; reflexivity.
  - unfold setPrior in E. repeat (apply check_Ok in E; destruct E as [? E]).
    inversion E; subst. split; [|reflexivity]. eapply refines_irrelevant; [..|exact R]; reflexivity.
  - unfold setNeighborActive in E. rewrite (refines_nbr _ _ _ W R) in E.
    destruct (h_nbr (pg_id g) h k); simpl in E; [|inversion E; subst; auto].
    destruct (mfind N.ltb k (pg_active g)) as [b0|] eqn:F; [|discriminate].
    inversion E; subst; clear E.
    assert (HA : pg_active (if eqb b0 b then g else clearDataMatrices g) = pg_active g)
      by (destruct (eqb b0 b); reflexivity).
    split; [|destruct (eqb b0 b); reflexivity].
    constructor; try (destruct (eqb b0 b); apply R).
    cbn. rewrite HA. unfold h_set. intros k' b'. destruct (N.eqb_spec k' k).
    + subst. rewrite (mfind_mset_eq _ Nltb_total). congruence.
    + rewrite (mfind_mset_neq _ Nltb_total) by auto. apply R.
  - inversion E; subst. split; [|reflexivity]. eapply refines_irrelevant; [..|exact R]; reflexivity.
  - inversion E; subst. split; [|reflexivity]. eapply refines_irrelevant; [..|exact R]; reflexivity.
  - inversion E; subst. split; [|reflexivity]. eapply refines_irrelevant; [..|exact R]; reflexivity.
  - inversion E; subst. split; [|reflexivity]. eapply refines_irrelevant; [..|exact R]; reflexivity.
  - apply bind_Ok in E. destruct E as [[g1 b] [E1 E2]]. inversion E2; subst.
    pose proof (constructData_core _ _ _ E1) as C. split; [eapply core_refines; eauto|apply C].
  - apply bind_Ok in E. destruct E as [[g1 b] [E1 E2]]. inversion E2; subst.
    pose proof (quadratic_core _ _ _ E1) as C. split; [eapply core_refines; eauto|apply C].
  - apply bind_Ok in E. destruct E as [[g1 b] [E1 E2]]. inversion E2; subst.
    pose proof (linear_core _ _ _ E1) as C. split; [eapply core_refines; eauto|apply C].
  - apply bind_Ok in E. destruct E as [[g1 b] [E1 E2]]. inversion E2; subst.
    pose proof (precon_core _ _ _ _ E1) as C. split; [eapply core_refines; eauto|apply C].
  - rewrite updatePublic_same in E by auto. inversion E; subst; auto.
  - inversion E; subst. pose proof (modify_weq g p w fixed) as Q.
    split; [|apply Q]. eapply refines_irrelevant; [..|exact R]; apply Q.
Qed.

Lemma run_refines_gen os : forall g h g', Forall op_ok os -> pg_wf g -> refines g h ->
  pg_run g os = Ok g' ->
  refines g' (fold_left (h_step (pg_id g)) os h) /\ pg_id g' = pg_id g /\ pg_wf g'.
Proof.
  induction os as [|o os IH]; intros g h g' HF W R E; unfold pg_run in *; simpl in *.
  - inversion E; subst; auto.
  - apply bind_Ok in E. destruct E as [g1 [E1 E2]]. inversion HF; subst.
    destruct (step_refines _ _ _ _ H2 W R E1) as [R1 I1].
    pose proof (pg_step_wf _ _ _ H2 W E1) as W1.
    destruct (IH g1 _ g' H3 W1 R1 E2) as (R2 & I2 & W2). rewrite I1 in *. auto.
Qed.

Lemma new_fields id r d g : newPoseGraph id r d = Ok g -> pg_id g = id /\ pg_r g = r /\ pg_d g = d /\
  refines g h_empty /\ pg_wf g.
Proof.
  intros E. pose proof (newPoseGraph_wf _ _ _ _ E) as W.
  unfold newPoseGraph in E. apply check_Ok in E. destruct E as [_ E]. inversion E; subst.
  do 3 (split; [reflexivity|]). split; [apply refines_empty|exact W].
Qed.

Lemma reach_facts id r d os g : reach id r d os g ->
  pg_id g = id /\ pg_wf g /\ refines g (h_run id os).
Proof.
  intros [E HF]. apply bind_Ok in E. destruct E as [g0 [E0 E1]].
  destruct (new_fields _ _ _ _ E0) as (A & B & C & R & W).
  destruct (run_refines_gen os g0 h_empty g HF W R E1) as (R' & I' & W').
  rewrite A in *. auto.
Qed.

(** ** C01: only insertions *)
Lemma adds_lists L1 : forall g0 L0, pg_wf g0 -> Forall ids_ok L1 -> Forall (shape_ok (pg_d g0)) L1 ->
  pg_odom g0 = filter (is_odom (pg_id g0)) (kept (pg_id g0) L0) ->
  pg_priv g0 = filter (is_priv (pg_id g0)) (kept (pg_id g0) L0) ->
  pg_shared g0 = filter (is_shared (pg_id g0)) (kept (pg_id g0) L0) ->
  exists g, pg_run g0 (map PAdd L1) = Ok g /\ pg_id g = pg_id g0 /\
    pg_odom g = filter (is_odom (pg_id g0)) (kept (pg_id g0) (L0 ++ L1)) /\
    pg_priv g = filter (is_priv (pg_id g0)) (kept (pg_id g0) (L0 ++ L1)) /\
    pg_shared g = filter (is_shared (pg_id g0)) (kept (pg_id g0) (L0 ++ L1)).
Proof.
  induction L1 as [|m L1 IH]; intros g0 L0 W HI HS E1 E2 E3; unfold pg_run in *; simpl.
  - exists g0. rewrite app_nil_r. auto.
  - inversion HI; inversion HS; subst.
    destruct (add_total g0 m) as [g1 A1]; auto. rewrite A1. simpl.
    pose proof (add_effect _ _ _ H2 A1) as (F1 & F2 & F3 & F4 & F5 & F6 & _). cbn zeta in *.
    assert (Hs : seen (measurements g0) m = seen (kept (pg_id g0) L0) m).
    { set (R := mkHist L0 (fun k => match mfind N.ltb k (pg_active g0) with Some b => b | None => true end)).
      apply (refines_seen g0 R). constructor; cbn [h_in h_act R].
      - rewrite E1; reflexivity.
      - rewrite E2; reflexivity.
      - rewrite E3; reflexivity.
      - intros k b E. rewrite E. reflexivity. }
    rewrite (hasMeasurement_seen _ _ W H2), Hs in *.
    destruct (IH g1 (L0 ++ [m])) as (g & G1 & G2 & G3 & G4 & G5).
    + eapply addMeasurement_wf; eauto.
    + auto.
    + rewrite F2; auto.
    + rewrite F1, F4, kept_snoc', filter_snoc_if, E1. reflexivity.
    + rewrite F1, F5, kept_snoc', filter_snoc_if, E2. reflexivity.
    + rewrite F1, F6, kept_snoc', filter_snoc_if, E3. reflexivity.
    + exists g. rewrite <- app_assoc in *. simpl in *. rewrite F1 in *. auto.
Qed.

Lemma store_exact id r d L : (d <= r)%nat -> Forall ids_ok L -> Forall (shape_ok d) L ->
  exists g, (do g0 <- newPoseGraph id r d; pg_run g0 (map PAdd L)) = Ok g /\
    pg_odom g = filter (is_odom id) (kept id L) /\
    pg_priv g = filter (is_priv id) (kept id L) /\
    pg_shared g = filter (is_shared id) (kept id L).
Proof.
  intros Hd HI HS. unfold newPoseGraph. apply PeanoNat.Nat.leb_le in Hd. rewrite Hd. simpl.
  set (g0 := pg_empty _).
  destruct (adds_lists L g0 []) as (g & A & B & C & D & E); auto.
  - apply pg_empty_wf.
  - exists g. rewrite A. cbn in C, D, E. auto.
Qed.

(** ** C02: lookup *)
Lemma joinsb_iff src dst m : joinsb src dst m = true <-> joins m src dst.
Proof. unfold joinsb, joins. rewrite !andb_true_iff, !N.eqb_eq. tauto. Qed.

Lemma joins_edge m src dst : ids_ok m -> (meas_edge m = mkEdgeID src dst <-> joins m src dst).
Proof.
  intros Hi. rewrite meas_edge_small by auto. unfold joins. destruct src, dst; simpl. split.
  - intros E; inversion E; auto.
  - intros (-> & -> & -> & ->). reflexivity.
Qed.

Lemma vec_deref g e i : nth_error (vec g e) i =
  deref g (if edge_isOdometry e then ROdom i else if edge_isPrivate e then RPriv i else RShared i).
Proof. unfold vec. destruct (edge_isOdometry e); auto. destruct (edge_isPrivate e); auto. Qed.

Lemma find_exact g src dst : pg_wf g ->
  (exists m p, In m (measurements g) /\ joins m src dst /\ hasMeasurement g src dst = true /\
      findMeasurement g src dst = Ok (Some p) /\ deref g p = Some m) \/
  ((forall m, In m (measurements g) -> ~ joins m src dst) /\ hasMeasurement g src dst = false /\
      findMeasurement g src dst = Ok None).
Proof.
  intros W. unfold hasMeasurement, findMeasurement.
  destruct (mfind edge_ltb (mkEdgeID src dst) (pg_index g)) as [i|] eqn:F.
  - left. pose proof F as F'. apply (wf_index _ W) in F'. destruct F' as [m [E1 E2]].
    assert (Hin : In m (measurements g)).
    { eapply vec_incl. eapply nth_error_In; eauto. }
    pose proof (wf_ids _ W _ Hin) as Hi. apply (joins_edge _ _ _ Hi) in E2.
    set (p := if edge_isOdometry (mkEdgeID src dst) then ROdom i
              else if edge_isPrivate (mkEdgeID src dst) then RPriv i else RShared i).
    exists m, p. rewrite vec_deref in E1. fold p in E1. rewrite E1.
    destruct E2 as (A & B & C & D). rewrite A, B, C, D, !N.eqb_refl. simpl.
    repeat split; auto.
  - right. repeat split; auto. intros m Hm Hj. pose proof (wf_ids _ W _ Hm) as Hi.
    apply (joins_edge _ _ _ Hi) in Hj. pose proof (in_measurements_vec _ _ W Hm) as V.
    rewrite Hj in V. apply In_nth_error in V. destruct V as [i V].
    assert (mfind edge_ltb (mkEdgeID src dst) (pg_index g) = Some i) by (apply (wf_index _ W); eauto).
    congruence.
Qed.

(** First relevant input for an edge = the kept one. *)
Lemma find_firsts L src dst : find (joinsb src dst) (firsts L) = find (joinsb src dst) L.
Proof.
  induction L as [|a L IH]; simpl; auto. destruct (joinsb src dst a) eqn:E; auto.
  rewrite <- IH. clear IH. induction (firsts L) as [|b F IHF]; simpl; auto.
  destruct (same_edgeb a b) eqn:E2; simpl.
  - assert (joinsb src dst b = false) as ->; auto. rewrite <- E.
    apply same_edgeb_eq in E2. destruct E2 as (A & B & C & D).
    unfold joinsb. rewrite A, B, C, D. reflexivity.
  - rewrite IHF. reflexivity.
Qed.

Lemma kept_edge_unique id L m m' : In m (kept id L) -> In m' (kept id L) ->
  same_edgeb m m' = true -> m = m'.
Proof.
  unfold kept. induction (filter (relevantb id) L) as [|a F IH]; simpl; [tauto|].
  rewrite !filter_In. intros [<-|[H1 H1']] [<-|[H2 H2']] E; auto.
  - rewrite E in H2'. discriminate.
  - rewrite same_edgeb_sym, E in H1'. discriminate.
Qed.

Lemma refines_member g h m : refines g h -> In m (measurements g) ->
  exists m0, In m0 (kept (pg_id g) (h_in h)) /\ strip m0 = strip m.
Proof.
  intros R Hx. unfold measurements in Hx. rewrite !in_app_iff in Hx.
  destruct Hx as [Hx|[Hx|Hx]].
  - destruct (map_eq_in _ _ _ (rf_odom _ _ R) _ Hx) as [y [Hy Es]]. apply filter_In in Hy. exists y; tauto.
  - destruct (map_eq_in _ _ _ (rf_priv _ _ R) _ Hx) as [y [Hy Es]]. apply filter_In in Hy. exists y; tauto.
  - destruct (map_eq_in _ _ _ (rf_shared _ _ R) _ Hx) as [y [Hy Es]]. apply filter_In in Hy. exists y; tauto.
Qed.

Lemma refines_member' g h m : refines g h -> In m (kept (pg_id g) (h_in h)) ->
  exists m0, In m0 (measurements g) /\ strip m0 = strip m.
Proof.
  intros R Hx. pose proof (kept_relevant _ _ _ Hx) as Hr. unfold measurements.
  destruct (classes _ _ Hr) as [(C & _ & _)|[(_ & C & _)|(_ & _ & C)]].
  - destruct (map_eq_in _ _ _ (eq_sym (rf_odom _ _ R)) m) as [y [Hy Es]]; [apply filter_In; auto|].
    exists y. rewrite !in_app_iff. auto.
  - destruct (map_eq_in _ _ _ (eq_sym (rf_priv _ _ R)) m) as [y [Hy Es]]; [apply filter_In; auto|].
    exists y. rewrite !in_app_iff. auto.
  - destruct (map_eq_in _ _ _ (eq_sym (rf_shared _ _ R)) m) as [y [Hy Es]]; [apply filter_In; auto|].
    exists y. rewrite !in_app_iff. auto.
Qed.

Lemma strip_joins m m' src dst : strip m = strip m' -> joins m src dst -> joins m' src dst.
Proof.
  intros E. apply strip_facts in E. destruct E as (A & B & C & D & _). unfold joins.
  rewrite A, B, C, D. auto.
Qed.

Lemma lookup_spec id r d os g src dst : reach id r d os g ->
  match find (joinsb src dst) (filter (relevantb id) (h_in (h_run id os))) with
  | Some m0 => hasMeasurement g src dst = true /\
      exists p m, findMeasurement g src dst = Ok (Some p) /\ deref g p = Some m /\ strip m = strip m0
  | None => hasMeasurement g src dst = false /\ findMeasurement g src dst = Ok None
  end.
Proof.
  intros Hr. destruct (reach_facts _ _ _ _ _ Hr) as (Hid & W & R).
  rewrite <- find_firsts. fold (kept id (h_in (h_run id os))).
  destruct (find_exact g src dst W) as [(m & p & Hin & Hj & Hh & Hf & Hd)|(Hn & Hh & Hf)].
  - destruct (refines_member _ _ _ R Hin) as [m0 [H0 Es]]. rewrite Hid in H0.
    destruct (find (joinsb src dst) (kept id (h_in (h_run id os)))) as [m1|] eqn:F.
    + split; auto. exists p, m. split; auto. split; auto.
      apply find_some in F. destruct F as [F1 F2]. apply joinsb_iff in F2.
      assert (m0 = m1) as ->; auto.
      apply (kept_edge_unique id (h_in (h_run id os))); auto. apply same_edgeb_eq.
      apply (strip_joins _ _ _ _ (eq_sym Es)) in Hj.
      destruct Hj as (A & B & C & D), F2 as (A' & B' & C' & D'). repeat split; congruence.
    + exfalso. pose proof (find_none _ _ F m0 H0) as F'.
      apply (strip_joins _ _ _ _ (eq_sym Es)), joinsb_iff in Hj. congruence.
  - destruct (find (joinsb src dst) (kept id (h_in (h_run id os)))) as [m1|] eqn:F; auto.
    exfalso. apply find_some in F. destruct F as [F1 F2]. apply joinsb_iff in F2.
    assert (F1' : In m1 (kept (pg_id g) (h_in (h_run id os)))) by (rewrite Hid; exact F1).
    destruct (refines_member' _ _ _ R F1') as [m0 [H0 Es]].
    apply (Hn m0 H0). exact (strip_joins _ _ _ _ (eq_sym Es) F2).
Qed.

(** ** C03: number of poses *)
Lemma strip_own id m m' : strip m = strip m' -> own_poses id m = own_poses id m'.
Proof.
  intros E. apply strip_facts in E. destruct E as (A & B & C & D & _). unfold own_poses.
  rewrite A, B, C, D. auto.
Qed.

Lemma n_spec id r d os g : reach id r d os g ->
  num_poses_spec id (kept id (h_in (h_run id os))) (pg_n g).
Proof.
  intros Hr. destruct (reach_facts _ _ _ _ _ Hr) as (Hid & W & R).
  destruct (wf_n _ W) as [N1 N2]. rewrite Hid in *. split.
  - intros m p Hm Hp. 
    assert (Hm' : In m (kept (pg_id g) (h_in (h_run id os)))) by (rewrite Hid; exact Hm).
    destruct (refines_member' _ _ _ R Hm') as [m0 [H0 Es]].
    apply (N1 m0 p H0). rewrite (strip_own _ _ _ Es). auto.
  - destruct N2 as [->|(m & p & Hm & Hp & ->)]; auto. right.
    destruct (refines_member _ _ _ R Hm) as [m0 [H0 Es]]. rewrite Hid in H0.
    exists m0, p. repeat split; auto. rewrite (strip_own _ _ _ Es). auto.
Qed.

Lemma Ok_injPGHist {A} (x y : A) : Ok x = Ok y -> x = y.
Proof. intros E; inversion E; auto. Qed.

Lemma add_n_mono g m g' : addMeasurement g m = Ok g' -> pg_n g <= pg_n g'.
Proof.
  intros HA. unfold addMeasurement in HA.
  destruct (mr1 m =? pg_id g) eqn:R1, (mr2 m =? pg_id g) eqn:R2; simpl in HA.
  - destruct (_ =? mp2 m); [unfold addOdometry in HA|unfold addPrivateLoopClosure in HA];
    (destruct (hasMeasurement _ _ _); [inversion HA; subst; lia|]);
    repeat (apply check_Ok in HA; destruct HA as [? HA]); inversion HA; subst; cbn; lia.
  - unfold addSharedLoopClosure in HA. destruct (hasMeasurement _ _ _); [inversion HA; subst; lia|].
    rewrite R1, R2 in HA. apply check_Ok in HA; destruct HA as [? HA]. apply Ok_injPGHist in HA; rewrite <- HA; clear HA; simpl pg_n; lia.
  - unfold addSharedLoopClosure in HA. destruct (hasMeasurement _ _ _); [inversion HA; subst; lia|].
    rewrite R1, R2 in HA. apply check_Ok in HA; destruct HA as [? HA]. apply Ok_injPGHist in HA; rewrite <- HA; clear HA; simpl pg_n; lia.
  - inversion HA; subst; lia.
Qed.

Lemma step_n_mono g o g' : pg_wf g -> clears o = false -> pg_step g o = Ok g' -> pg_n g <= pg_n g'.
Proof.
  intros W C E. destruct o; simpl in C, E; try discriminate;
    try (inversion E; subst; cbn; lia).
  - eapply add_n_mono; eauto.
  - unfold setPrior in E. repeat (apply check_Ok in E; destruct E as [? E]). inversion E; subst; cbn; lia.
  - unfold setNeighborActive in E. destruct (negb _); [inversion E; subst; lia|].
    destruct (mfind N.ltb k (pg_active g)) as [b0|]; inversion E; subst. cbn. destruct (eqb b0 b); cbn; lia.
  - apply bind_Ok in E. destruct E as [[g1 b] [E1 E2]]. inversion E2; subst.
    apply constructData_core in E1. unfold core_eq in E1. intuition lia.
  - apply bind_Ok in E. destruct E as [[g1 b] [E1 E2]]. inversion E2; subst.
    apply quadratic_core in E1. unfold core_eq in E1. intuition lia.
  - apply bind_Ok in E. destruct E as [[g1 b] [E1 E2]]. inversion E2; subst.
    apply linear_core in E1. unfold core_eq in E1. intuition lia.
  - apply bind_Ok in E. destruct E as [[g1 b] [E1 E2]]. inversion E2; subst.
    apply precon_core in E1. unfold core_eq in E1. intuition lia.
  - rewrite updatePublic_same in E by auto. inversion E; subst; lia.
  - inversion E; subst. destruct p; cbn; lia.
Qed.

Lemma run_n_mono os : forall g g', Forall op_ok os -> pg_wf g -> forallb (fun o => negb (clears o)) os = true ->
  pg_run g os = Ok g' -> pg_n g <= pg_n g'.
Proof.
  induction os as [|o os IH]; intros g g' HF W C E; unfold pg_run in *; simpl in *.
  - inversion E; subst; lia.
  - apply bind_Ok in E. destruct E as [g1 [E1 E2]]. apply andb_true_iff in C. destruct C as [C1 C2].
    apply negb_true_iff in C1. inversion HF; subst.
    pose proof (step_n_mono _ _ _ W C1 E1). pose proof (pg_step_wf _ _ _ H2 W E1) as W1.
    specialize (IH g1 g' H3 W1 C2 E2). lia.
Qed.

(** ** C04: neighbour and public sets *)
Lemma shared_transfer {B} (f : Meas S -> B) id r d os g x : reach id r d os g ->
  (forall a b, strip a = strip b -> f a = f b) ->
  (exists m, In m (pg_shared g) /\ f m = x) <->
  (exists m, In m (kept id (h_in (h_run id os))) /\ is_shared id m = true /\ f m = x).
Proof.
  intros Hr Hf. destruct (reach_facts _ _ _ _ _ Hr) as (Hid & W & R). split.
  - intros [m [Hm E]]. destruct (map_eq_in _ _ _ (rf_shared _ _ R) _ Hm) as [y [Hy Es]].
    apply filter_In in Hy. rewrite Hid in Hy. exists y. rewrite (Hf _ _ Es). tauto.
  - intros (m & Hm & Hs & E).
    destruct (map_eq_in _ _ _ (eq_sym (rf_shared _ _ R)) m) as [y [Hy Es]]; [rewrite Hid; apply filter_In; auto|].
    exists y. rewrite (Hf _ _ Es). auto.
Qed.

Lemma nbr_sets id r d os g : reach id r d os g ->
  let K := kept id (h_in (h_run id os)) in
  (forall k, In k (pg_nbrs g) <-> exists m, In m K /\ is_shared id m = true /\ other_robot id m = k) /\
  (forall p, In p (pg_lpub g) <-> exists m, In m K /\ is_shared id m = true /\ own_pose id m = p) /\
  (forall p, In p (pg_npub g) <-> exists m, In m K /\ is_shared id m = true /\ other_pose id m = p) /\
  (forall p, requireNeighborPose g p = true <-> In p (pg_npub g)) /\
  (forall k, hasNeighbor g k = true <-> In k (pg_nbrs g)) /\
  NoDup (pg_nbrs g) /\ NoDup (pg_lpub g) /\ NoDup (pg_npub g) /\
  updatePublicPoseIDs g = Ok g.
Proof.
  intros Hr K. destruct (reach_facts _ _ _ _ _ Hr) as (Hid & W & R). repeat split.
  - intros Hk. apply (wf_nbrs _ W) in Hk. rewrite Hid in Hk. revert Hk.
    apply (shared_transfer (other_robot id) _ _ _ _ _ _ Hr).
    intros a b Es. apply strip_facts in Es. destruct Es as (A & B & _). unfold other_robot. rewrite A, B; auto.
  - intros Hk. apply (wf_nbrs _ W). rewrite Hid. revert Hk.
    apply (shared_transfer (other_robot id) _ _ _ _ _ _ Hr).
    intros a b Es. apply strip_facts in Es. destruct Es as (A & B & _). unfold other_robot. rewrite A, B; auto.
  - intros Hk. apply (wf_lpub _ W) in Hk. rewrite Hid in Hk. revert Hk.
    apply (shared_transfer (own_pose id) _ _ _ _ _ _ Hr).
    intros a b Es. apply strip_facts in Es. destruct Es as (A & B & C & D & _). unfold own_pose. rewrite A, B, C, D; auto.
  - intros Hk. apply (wf_lpub _ W). rewrite Hid. revert Hk.
    apply (shared_transfer (own_pose id) _ _ _ _ _ _ Hr).
    intros a b Es. apply strip_facts in Es. destruct Es as (A & B & C & D & _). unfold own_pose. rewrite A, B, C, D; auto.
  - intros Hk. apply (wf_npub _ W) in Hk. rewrite Hid in Hk. revert Hk.
    apply (shared_transfer (other_pose id) _ _ _ _ _ _ Hr).
    intros a b Es. apply strip_facts in Es. destruct Es as (A & B & C & D & _). unfold other_pose. rewrite A, B, C, D; auto.
  - intros Hk. apply (wf_npub _ W). rewrite Hid. revert Hk.
    apply (shared_transfer (other_pose id) _ _ _ _ _ _ Hr).
    intros a b Es. apply strip_facts in Es. destruct Es as (A & B & C & D & _). unfold other_pose. rewrite A, B, C, D; auto.
  - apply (smem_In _ pose_total _ _ (wf_npub_sorted _ W)).
  - apply (smem_In _ pose_total _ _ (wf_npub_sorted _ W)).
  - apply (smem_In _ Nltb_total _ _ (wf_nbrs_sorted _ W)).
  - apply (smem_In _ Nltb_total _ _ (wf_nbrs_sorted _ W)).
  - apply (ssorted_NoDup _ Nltb_total). apply W.
  - apply (ssorted_NoDup _ pose_total). apply W.
  - apply (ssorted_NoDup _ pose_total). apply W.
  - apply updatePublic_same; auto.
Qed.

(** ** C05: activity *)
Lemma isActive_total g k : pg_wf g -> exists b, isNeighborActive g k = Ok b /\
  (hasNeighbor g k = true -> mfind N.ltb k (pg_active g) = Some b) /\ (hasNeighbor g k = false -> b = false).
Proof.
  intros W. unfold isNeighborActive. destruct (hasNeighbor g k) eqn:Hn; simpl.
  - apply (smem_In _ Nltb_total _ _ (wf_nbrs_sorted _ W)) in Hn.
    apply (wf_active _ W) in Hn. destruct (mfind N.ltb k (pg_active g)) eqn:F.
    + exists b. repeat split; auto. discriminate.
    + apply (mfind_None _ Nltb_total _ _ (wf_active_sorted _ W)) in F. tauto.
  - exists false. repeat split; auto. discriminate.
Qed.

Lemma active_spec id r d os g k : reach id r d os g ->
  isNeighborActive g k = Ok (h_nbr id (h_run id os) k && h_act (h_run id os) k).
Proof.
  intros Hr. destruct (reach_facts _ _ _ _ _ Hr) as (Hid & W & R).
  destruct (isActive_total g k W) as (b & E & F1 & F2). rewrite E. f_equal.
  pose proof (refines_nbr _ _ k W R) as En. rewrite Hid in En. rewrite <- En.
  destruct (hasNeighbor g k); simpl; auto. apply (rf_active _ _ R). auto.
Qed.

Definition act g k : bool := match isNeighborActive g k with Ok b => b | _ => false end.

Lemma shared_conds g m : pg_wf g -> In m (pg_shared g) ->
  let a := act g (other_robot (pg_id g) m) in
  lc_active_cond g m = Ok a /\ lc_inactive_cond g m = Ok (negb a) /\ stat_skip g m = Ok (negb a).
Proof.
  intros W Hm. pose proof (wf_shared _ W _ Hm) as Hs.
  assert (Hi : ids_ok m). { apply (wf_ids _ W). unfold measurements. rewrite !in_app_iff. auto. }
  destruct Hi as (A & B & C & D). unfold act.
  destruct (isActive_total g (other_robot (pg_id g) m) W) as (b & E & _). rewrite E.
  unfold is_shared in Hs. unfold lc_active_cond, lc_inactive_cond, stat_skip, other_robot in *.
  destruct (mr1 m =? pg_id g) eqn:R1, (mr2 m =? pg_id g) eqn:R2; simpl in Hs; try discriminate;
    rewrite !u32_small by lia; simpl; rewrite ?E; simpl.
  - destruct b; simpl; auto.
  - destruct b; simpl; auto.
Qed.

Lemma filterM_pure {A} (f : A -> res bool) (h : A -> bool) l :
  (forall x, In x l -> f x = Ok (h x)) -> filterM f l = Ok (filter h l).
Proof.
  induction l as [|x l IH]; simpl; auto. intros E. rewrite (E x (or_introl eq_refl)). simpl.
  rewrite IH by auto. simpl. reflexivity.
Qed.

Definition ref_active g (p : mref) : bool :=
  match p with
  | RShared i => match nth_error (pg_shared g) i with
                 | Some m => act g (other_robot (pg_id g) m) | None => false end
  | _ => true
  end.

Lemma sharedRefs_deref g p : In p (sharedRefs g) -> exists i m, p = RShared i /\ nth_error (pg_shared g) i = Some m.
Proof.
  unfold sharedRefs. rewrite in_map_iff. intros [i [<- Hi]]. apply in_seq in Hi.
  destruct (nth_error (pg_shared g) i) eqn:E; eauto.
  apply nth_error_None in E. lia.
Qed.

Lemma active_lists g : pg_wf g ->
  activeLoopClosures g = Ok (filter (ref_active g) (allLoopClosures g)) /\
  inactiveLoopClosures g = Ok (filter (fun p => negb (ref_active g p)) (allLoopClosures g)).
Proof.
  intros W. unfold activeLoopClosures, inactiveLoopClosures, shared_filter, allLoopClosures.
  assert (P : filter (ref_active g) (privRefs g) = privRefs g
            /\ filter (fun p => negb (ref_active g p)) (privRefs g) = []).
  { unfold privRefs. induction (seq 0 (length (pg_priv g))) as [|x l IH]; simpl; auto.
    destruct IH as [-> ->]. auto. }
  destruct P as [P1 P2]. rewrite !filter_app, P1, P2. simpl. split.
  - rewrite (filterM_pure _ (ref_active g)); auto. intros p Hp.
    destruct (sharedRefs_deref _ _ Hp) as (i & m & -> & E). simpl. rewrite E.
    apply (shared_conds g m W). eapply nth_error_In; eauto.
  - rewrite (filterM_pure _ (fun p => negb (ref_active g p))); auto. intros p Hp.
    destruct (sharedRefs_deref _ _ Hp) as (i & m & -> & E). simpl. rewrite E.
    apply (shared_conds g m W). eapply nth_error_In; eauto.
Qed.

Lemma filter_partition {A} (f : A -> bool) l : Permutation (filter f l ++ filter (fun x => negb (f x)) l) l.
Proof.
  induction l as [|x l IH]; simpl; auto. destruct (f x); simpl.
  - constructor; auto.
  - rewrite <- Permutation_middle. constructor; auto.
Qed.

Lemma allLoopClosures_NoDup g : NoDup (allLoopClosures g).
Proof.
  unfold allLoopClosures, privRefs, sharedRefs.
  assert (forall l1 l2 : list nat, NoDup l1 -> NoDup l2 -> NoDup (map RPriv l1 ++ map RShared l2)) as X.
  { induction l1 as [|x l1 IH]; simpl; intros l2 N1 N2.
    - apply FinFun.Injective_map_NoDup; auto. intros a b E; inversion E; auto.
    - inversion N1; subst. constructor; auto. rewrite in_app_iff, !in_map_iff.
      intros [[y [E Hy]]|[y [E Hy]]]; inversion E; subst; auto. }
  apply X; apply seq_NoDup.
Qed.

Lemma allLoopClosures_spec g p : In p (allLoopClosures g) <->
  (exists m, deref g p = Some m) /\ (forall i, p <> ROdom i).
Proof.
  unfold allLoopClosures, privRefs, sharedRefs. rewrite in_app_iff, !in_map_iff. split.
  - intros [[i [<- Hi]]|[i [<- Hi]]]; apply in_seq in Hi; simpl; (split; [|discriminate]).
    + destruct (nth_error (pg_priv g) i) eqn:E; eauto. apply nth_error_None in E. lia.
    + destruct (nth_error (pg_shared g) i) eqn:E; eauto. apply nth_error_None in E. lia.
  - intros [[m E] Hne]. destruct p as [i|i|i]; simpl in E.
    + exfalso; eapply Hne; reflexivity.
    + left. exists i. split; auto. apply in_seq. split; [lia|]. simpl. apply nth_error_Some. congruence.
    + right. exists i. split; auto. apply in_seq. split; [lia|]. simpl. apply nth_error_Some. congruence.
Qed.

(** Effect of [setNeighborActive]. *)
Lemma setActive_effect g k b : pg_wf g ->
  exists g', setNeighborActive g k b = Ok g' /\
   (hasNeighbor g k = false -> g' = g) /\
   (hasNeighbor g k = true -> isNeighborActive g' k = Ok b) /\
   (forall k', k' <> k -> isNeighborActive g' k' = isNeighborActive g k') /\
   measurements g' = measurements g /\ pg_nbrs g' = pg_nbrs g /\ pg_n g' = pg_n g /\
   pg_nposes g' = pg_nposes g /\ pg_priors g' = pg_priors g.
Proof.
  intros W. unfold setNeighborActive. destruct (isActive_total g k W) as (b0 & E & F1 & F2).
  destruct (hasNeighbor g k) eqn:Hn; simpl.
  - rewrite (F1 eq_refl). eexists. split; [reflexivity|].
    assert (HA : pg_active (if eqb b0 b then g else clearDataMatrices g) = pg_active g)
      by (destruct (eqb b0 b); reflexivity).
    assert (HN : pg_nbrs (if eqb b0 b then g else clearDataMatrices g) = pg_nbrs g)
      by (destruct (eqb b0 b); reflexivity).
    split; [discriminate|].
    split; [intros _|split; [intros k' Hk|]].
    + unfold isNeighborActive, hasNeighbor. cbn. rewrite HN, HA. unfold hasNeighbor in Hn. rewrite Hn. simpl.
      rewrite (mfind_mset_eq _ Nltb_total). reflexivity.
    + unfold isNeighborActive, hasNeighbor. cbn. rewrite HN, HA.
      rewrite (mfind_mset_neq _ Nltb_total) by auto. reflexivity.
    + unfold measurements; cbn. destruct (eqb b0 b); repeat split; reflexivity.
  - exists g. repeat split; auto. discriminate.
Qed.

(** ** C06: statistics *)
Lemma count_app {A} (f : A -> bool) l1 l2 : count f (l1 ++ l2) = (count f l1 + count f l2)%nat.
Proof. unfold count. rewrite filter_app, app_length. reflexivity. Qed.

Definition w_acc (m : Meas S) : bool := neqb (mweight m) n1.
Definition w_rej (m : Meas S) : bool := negb (neqb (mweight m) n1) && neqb (mweight m) n0.

Lemma stat_fold ms : forall t a r, fold_left stat_step ms (t, a, r) =
  (t + length ms, a + count w_acc ms, r + count w_rej ms)%nat.
Proof.
  unfold count. induction ms as [|m ms IH]; intros t a r; simpl.
  - rewrite !PeanoNat.Nat.add_0_r. reflexivity.
  - unfold w_acc, w_rej in *. destruct (neqb (mweight m) n1); simpl.
    + rewrite IH. apply f_equal2; [apply f_equal2|]; lia.
    + destruct (neqb (mweight m) n0); simpl; rewrite IH; apply f_equal2; [apply f_equal2| |apply f_equal2|]; lia.
Qed.

Definition active_shared g : list (Meas S) := filter (fun m => act g (other_robot (pg_id g) m)) (pg_shared g).

Lemma stat_foldM g : pg_wf g -> forall ms s, (forall m, In m ms -> In m (pg_shared g)) ->
  foldM (fun s m => do sk <- stat_skip g m; Ok (if sk then s else stat_step s m)) s ms =
  Ok (fold_left stat_step (filter (fun m => act g (other_robot (pg_id g) m)) ms) s).
Proof.
  intros W. induction ms as [|m ms IH]; intros s Hin; simpl; auto.
  destruct (shared_conds g m W (Hin m (or_introl eq_refl))) as (_ & _ & E). rewrite E. simpl.
  rewrite IH by (intros; apply Hin; right; auto).
  destruct (act g (other_robot (pg_id g) m)); reflexivity.
Qed.

Lemma statistics_spec g : pg_wf g ->
  let L := pg_priv g ++ active_shared g in
  statistics g = Ok (mkStats (length L) (count w_acc L) (count w_rej L)
                       (length L - count w_acc L - count w_rej L)).
Proof.
  intros W L. unfold statistics. rewrite stat_fold. rewrite (stat_foldM g W) by auto. simpl.
  rewrite stat_fold. simpl. unfold L. rewrite !count_app, !app_length. reflexivity.
Qed.

Lemma map_nth_error_seq {A} (l : list A) : map (nth_error l) (seq 0 (length l)) = map Some l.
Proof.
  induction l as [|a l IH]; simpl; auto. f_equal. rewrite <- seq_shift, map_map. exact IH.
Qed.

(** The pointers returned by [activeLoopClosures], dereferenced, are exactly the
    private loop closures followed by the active shared ones. *)
Lemma active_deref g : pg_wf g -> exists A, activeLoopClosures g = Ok A /\
  map (deref g) A = map Some (pg_priv g ++ active_shared g).
Proof.
  intros W. destruct (active_lists g W) as [EA _]. eexists. split; [exact EA|].
  unfold allLoopClosures. rewrite filter_app, map_app.
  assert (E1 : map (deref g) (filter (ref_active g) (privRefs g)) = map Some (pg_priv g)).
  { rewrite <- map_nth_error_seq. unfold privRefs.
    induction (seq 0 (length (pg_priv g))) as [|x l IH]; simpl; auto. f_equal; auto. }
  assert (E2 : map (deref g) (filter (ref_active g) (sharedRefs g)) = map Some (active_shared g)).
  { unfold active_shared, sharedRefs. unfold ref_active. cbn.
    generalize (act g) as h. intros h.
    assert (X : forall (l : list (Meas S)) (k : nat), 
       (forall i, nth_error (pg_shared g) (k + i) = nth_error l i) ->
       map (deref g) (filter (fun p => match p with
                                 | RShared i => match nth_error (pg_shared g) i with
                                      | Some m => h (other_robot (pg_id g) m) | None => false end
                                 | _ => true end) (map RShared (seq k (length l))))
       = map Some (filter (fun m => h (other_robot (pg_id g) m)) l)).
    { induction l as [|m l IH]; intros k Hk; simpl; auto.
      assert (E0 : nth_error (pg_shared g) k = Some m).
      { specialize (Hk 0%nat). rewrite PeanoNat.Nat.add_0_r in Hk. exact Hk. }
      rewrite E0. destruct (h _); simpl; rewrite ?E0; [f_equal|];
      apply IH; intros i; specialize (Hk (Datatypes.S i));
      (transitivity (nth_error (pg_shared g) (k + Datatypes.S i)); [f_equal; lia|exact Hk]). }
    apply (X (pg_shared g) 0%nat). reflexivity. }
  rewrite E1, E2, map_app. reflexivity.
Qed.

End PG.
