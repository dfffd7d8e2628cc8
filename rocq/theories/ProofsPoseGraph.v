(** Lemmas about the pose graph bookkeeping. *)
From Coq Require Import List NArith Bool Lia Permutation.
From Verif Require Import Base SMap Num ModelTypes ModelPoseGraph SpecPoseGraph SpecPGHist.
Import ListNotations.
Local Open Scope N_scope.
Local Open Scope res_scope.

(** ** The comparison functions are strict total orders *)

Lemma Nltb_total : strict_total N.ltb.
Proof.
  split.
  - intros; apply N.ltb_irrefl.
  - intros a b c; rewrite !N.ltb_lt; lia.
  - intros a b; rewrite !N.ltb_ge; lia.
Qed.

Lemma lex_irr l : lex_ltb l l = false.
Proof.
  induction l as [|x l IH]; simpl; auto. rewrite N.ltb_irrefl, N.eqb_refl, IH. reflexivity.
Qed.

Lemma lex_trans l1 : forall l2 l3, length l1 = length l2 -> length l2 = length l3 ->
  lex_ltb l1 l2 = true -> lex_ltb l2 l3 = true -> lex_ltb l1 l3 = true.
Proof.
  induction l1 as [|x l1 IH]; intros [|y l2] [|z l3]; simpl; try discriminate; auto.
  intros E1 E2. rewrite !orb_true_iff, !andb_true_iff, !N.ltb_lt, !N.eqb_eq.
  intros [H1|[H1 H1']] [H2|[H2 H2']]; try (left; lia).
  right. split; [lia|]. apply (IH l2 l3); auto; lia.
Qed.

Lemma lex_total l1 : forall l2, length l1 = length l2 ->
  lex_ltb l1 l2 = false -> lex_ltb l2 l1 = false -> l1 = l2.
Proof.
  induction l1 as [|x l1 IH]; intros [|y l2]; simpl; try discriminate; auto.
  intros E. rewrite !orb_false_iff, !andb_false_iff, !N.ltb_ge, !N.eqb_neq.
  intros [H1 H1'] [H2 H2']. assert (x = y) by lia. subst. f_equal.
  apply IH; [lia| |].
  - destruct H1' as [H|H]; [congruence|exact H].
  - destruct H2' as [H|H]; [congruence|exact H].
Qed.

Lemma pose_ltb_lex a b : pose_ltb a b = lex_ltb [robot_id a; frame_id a] [robot_id b; frame_id b].
Proof.
  unfold pose_ltb; simpl. rewrite andb_false_r, orb_false_r. reflexivity.
Qed.

Lemma pose_total : strict_total pose_ltb.
Proof.
  split; intros *; rewrite !pose_ltb_lex.
  - apply lex_irr.
  - apply lex_trans; reflexivity.
  - intros H1 H2.
    pose proof (lex_total [robot_id a; frame_id a] [robot_id b; frame_id b] eq_refl H1 H2) as E.
    destruct a, b; simpl in E; inversion E; reflexivity.
Qed.

Lemma edge_total : strict_total edge_ltb.
Proof.
  split; intros *; unfold edge_ltb.
  - apply lex_irr.
  - apply lex_trans; reflexivity.
  - intros H1 H2. pose proof (lex_total (edge_tuple a) (edge_tuple b) eq_refl H1 H2) as E.
    destruct a as [[] []], b as [[] []]; simpl in E; inversion E; reflexivity.
Qed.

Lemma u32_small x : x < 4294967296 -> u32 x = x.
Proof. intros. unfold u32, two32. apply N.mod_small. assumption. Qed.

Lemma u64_small x : x < 18446744073709551616 -> u64 x = x.
Proof. intros. unfold u64, two64. apply N.mod_small. assumption. Qed.

(** ** Generic helpers *)

Lemma bind_Ok {A B} (x : res A) (f : A -> res B) b :
  bind x f = Ok b -> exists a, x = Ok a /\ f a = Ok b.
Proof. destruct x; simpl; try discriminate. eauto. Qed.

Lemma check_Ok {A} b (k : res A) v : check b k = Ok v -> b = true /\ k = Ok v.
Proof. unfold check. destruct b; auto; discriminate. Qed.

Lemma require_Ok {A} b (k : res A) v : require b k = Ok v -> b = true /\ k = Ok v.
Proof. unfold require. destruct b; auto; discriminate. Qed.

Lemma foldM_app {A B} (f : A -> B -> res A) l1 : forall l2 a,
  foldM f a (l1 ++ l2) = bind (foldM f a l1) (fun a' => foldM f a' l2).
Proof.
  induction l1 as [|b l1 IH]; intros l2 a; simpl; auto.
  destruct (f a b); simpl; auto.
Qed.

Lemma foldM_inv {A B} (P : A -> Prop) (Q : B -> Prop) (f : A -> B -> res A) l : forall a a',
  (forall a b a', Q b -> P a -> f a b = Ok a' -> P a') ->
  Forall Q l -> P a -> foldM f a l = Ok a' -> P a'.
Proof.
  induction l as [|b l IH]; simpl; intros a a' Hstep HQ HP.
  - intros E; inversion E; subst; auto.
  - intros E. apply bind_Ok in E. destruct E as [a1 [E1 E2]].
    inversion HQ; subst. apply (IH a1 a'); auto. apply (Hstep a b a1); auto.
Qed.

Lemma list_update_nth {A} (l : list A) f : forall i j,
  nth_error (list_update l i f) j =
  if Nat.eqb i j then option_map f (nth_error l j) else nth_error l j.
Proof.
  induction l as [|x l IH]; intros [|i] [|j]; simpl; auto.
  destruct (Nat.eqb i j); reflexivity.
Qed.

Lemma list_update_length {A} (l : list A) f : forall i, length (list_update l i f) = length l.
Proof. induction l as [|x l IH]; intros [|i]; simpl; auto. Qed.

Lemma list_update_map {A B} (h : A -> B) (l : list A) f i :
  (forall x, h (f x) = h x) -> map h (list_update l i f) = map h l.
Proof.
  intros Hf. revert i. induction l as [|x l IH]; intros [|i]; simpl; auto.
  - f_equal; auto.
  - f_equal; auto.
Qed.

Section PG.
Context {S : Type} `{Num S}.
Implicit Types (g : PoseGraph S) (m : Meas S).

Definition vec g (e : EdgeID) : list (Meas S) :=
  if edge_isOdometry e then pg_odom g
  else if edge_isPrivate e then pg_priv g else pg_shared g.

(** Structural invariant of a pose graph. *)
Record pg_wf g : Prop := {
  wf_ids : forall m, In m (measurements g) -> ids_ok m;
  wf_dims : forall m, In m (measurements g) -> dims_ok g m = true;
  wf_odom : forall m, In m (pg_odom g) -> is_odom (pg_id g) m = true;
  wf_priv : forall m, In m (pg_priv g) -> is_priv (pg_id g) m = true;
  wf_shared : forall m, In m (pg_shared g) -> is_shared (pg_id g) m = true;
  wf_index_sorted : msorted edge_ltb (pg_index g);
  wf_index : forall e i, mfind edge_ltb e (pg_index g) = Some i <->
      exists m, nth_error (vec g e) i = Some m /\ meas_edge m = e;
  wf_n : num_poses_spec (pg_id g) (measurements g) (pg_n g);
  wf_lpub_sorted : ssorted pose_ltb (pg_lpub g);
  wf_lpub : forall p, In p (pg_lpub g) <-> exists m, In m (pg_shared g) /\ own_pose (pg_id g) m = p;
  wf_npub_sorted : ssorted pose_ltb (pg_npub g);
  wf_npub : forall p, In p (pg_npub g) <-> exists m, In m (pg_shared g) /\ other_pose (pg_id g) m = p;
  wf_nbrs_sorted : ssorted N.ltb (pg_nbrs g);
  wf_nbrs : forall k, In k (pg_nbrs g) <-> exists m, In m (pg_shared g) /\ other_robot (pg_id g) m = k;
  wf_active_sorted : msorted N.ltb (pg_active g);
  wf_active : forall k, In k (map fst (pg_active g)) <-> In k (pg_nbrs g);
  wf_nposes_sorted : msorted pose_ltb (pg_nposes g);
  wf_priors_sorted : msorted N.ltb (pg_priors g);
  wf_priors : forall i X, In (i, X) (pg_priors g) ->
      i < pg_n g /\ mcols X = Datatypes.S (pg_d g) /\ mrows X = pg_r g }.

Lemma meas_edge_small m : ids_ok m ->
  meas_edge m = mkEdgeID (mkPoseID (mr1 m) (mp1 m)) (mkPoseID (mr2 m) (mp2 m)).
Proof.
  intros (A & B & C & D). unfold meas_edge, meas_src, meas_dst, pose_of.
  rewrite !u32_small by lia. reflexivity.
Qed.

Lemma edge_kind_odom id m : ids_ok m -> is_odom id m = true -> edge_isOdometry (meas_edge m) = true.
Proof.
  intros Hi Ho. rewrite meas_edge_small by auto. unfold is_odom in Ho. unfold edge_isOdometry; simpl.
  rewrite !andb_true_iff, !N.eqb_eq in *. destruct Hi as (A & B & C & D).
  rewrite u32_small by lia. lia.
Qed.

Lemma edge_kind_priv id m : ids_ok m -> is_priv id m = true ->
  edge_isOdometry (meas_edge m) = false /\ edge_isPrivate (meas_edge m) = true.
Proof.
  intros Hi Ho. rewrite meas_edge_small by auto. unfold is_priv in Ho.
  unfold edge_isOdometry, edge_isPrivate; simpl.
  rewrite !andb_true_iff, negb_true_iff, !N.eqb_eq, N.eqb_neq in Ho.
  destruct Hi as (A & B & C & D). rewrite u32_small by lia.
  destruct Ho as [[-> ->] Hp].
  rewrite !N.eqb_refl. simpl. split.
  - apply N.eqb_neq. lia.
  - apply negb_true_iff, N.eqb_neq. lia.
Qed.

Lemma edge_kind_shared id m : ids_ok m -> is_shared id m = true ->
  edge_isOdometry (meas_edge m) = false /\ edge_isPrivate (meas_edge m) = false.
Proof.
  intros Hi Ho. rewrite meas_edge_small by auto. unfold is_shared in Ho.
  assert (mr1 m =? mr2 m = false).
  { apply N.eqb_neq. rewrite orb_true_iff, !andb_true_iff, !negb_true_iff, !N.eqb_eq, !N.eqb_neq in Ho.
    destruct Ho as [[? ?]|[? ?]]; congruence. }
  unfold edge_isOdometry, edge_isPrivate; simpl. rewrite H0. auto.
Qed.

Lemma vec_incl g e m : In m (vec g e) -> In m (measurements g).
Proof.
  unfold vec, measurements. rewrite !in_app_iff.
  destruct (edge_isOdometry e); auto. destruct (edge_isPrivate e); auto.
Qed.

Lemma in_measurements_vec g m : pg_wf g -> In m (measurements g) -> In m (vec g (meas_edge m)).
Proof.
  intros W Hin. pose proof (wf_ids _ W _ Hin) as Hi.
  unfold measurements in Hin. rewrite !in_app_iff in Hin. unfold vec.
  destruct Hin as [Hin|[Hin|Hin]].
  - rewrite (edge_kind_odom _ _ Hi (wf_odom _ W _ Hin)). auto.
  - destruct (edge_kind_priv _ _ Hi (wf_priv _ W _ Hin)) as [-> ->]. auto.
  - destruct (edge_kind_shared _ _ Hi (wf_shared _ W _ Hin)) as [-> ->]. auto.
Qed.

Lemma hasMeasurement_edge g e : pg_wf g ->
  (hasMeasurement g (src_id e) (dst_id e) = true <->
   exists m, In m (measurements g) /\ meas_edge m = e).
Proof.
  intros W. unfold hasMeasurement. destruct e as [s d]; simpl.
  destruct (mfind edge_ltb (mkEdgeID s d) (pg_index g)) eqn:E.
  - split; auto. intros _. apply (wf_index _ W) in E. destruct E as [m [E1 E2]].
    exists m. split; auto. eapply vec_incl. eapply nth_error_In; eauto.
  - split; [discriminate|]. intros [m [Hin He]].
    pose proof (in_measurements_vec _ _ W Hin) as Hv. rewrite He in Hv.
    apply In_nth_error in Hv. destruct Hv as [i Hi].
    assert (mfind edge_ltb (mkEdgeID s d) (pg_index g) = Some i) as C.
    { apply (wf_index _ W). eauto. }
    congruence.
Qed.

(** Edges determine stored measurements. *)
Lemma edge_unique g m m' : pg_wf g -> In m (measurements g) -> In m' (measurements g) ->
  meas_edge m = meas_edge m' -> m = m'.
Proof.
  intros W H1 H2 E. pose proof (in_measurements_vec _ _ W H1) as V1.
  pose proof (in_measurements_vec _ _ W H2) as V2. rewrite <- E in V2.
  apply In_nth_error in V1. apply In_nth_error in V2. destruct V1 as [i Hi], V2 as [j Hj].
  assert (A : mfind edge_ltb (meas_edge m) (pg_index g) = Some i) by (apply (wf_index _ W); eauto).
  assert (B : mfind edge_ltb (meas_edge m) (pg_index g) = Some j) by (apply (wf_index _ W); eauto).
  congruence.
Qed.

Lemma num_poses_spec_unique id (L : list (Meas S)) a b :
  num_poses_spec id L a -> num_poses_spec id L b -> a = b.
Proof.
  intros [A1 A2] [B1 B2].
  destruct A2 as [->|(m & p & Hm & Hp & ->)], B2 as [->|(m' & p' & Hm' & Hp' & ->)]; auto.
  - specialize (A1 _ _ Hm' Hp'). lia.
  - specialize (B1 _ _ Hm Hp). lia.
  - specialize (A1 _ _ Hm' Hp'). specialize (B1 _ _ Hm Hp). lia.
Qed.

Lemma num_poses_spec_perm id (L L' : list (Meas S)) a :
  (forall x, In x L <-> In x L') -> num_poses_spec id L a -> num_poses_spec id L' a.
Proof.
  intros E [A1 A2]. split.
  - intros m p Hm. apply A1. apply E; auto.
  - destruct A2 as [->|(m & p & Hm & Hp & ->)]; auto. right. exists m, p. rewrite <- E. auto.
Qed.

Lemma num_poses_spec_cons id (L : list (Meas S)) a m q :
  own_poses id m <> [] ->
  (forall p, In p (own_poses id m) -> p < q) ->
  (exists p, In p (own_poses id m) /\ q = p + 1) ->
  num_poses_spec id L a -> num_poses_spec id (m :: L) (N.max a q).
Proof.
  intros Hne Hlt [p [Hp Hq]] [A1 A2]. split.
  - intros m' p' [<-|Hm'] Hp'.
    + specialize (Hlt _ Hp'). lia.
    + specialize (A1 _ _ Hm' Hp'). lia.
  - destruct (N.leb_spec a q).
    + right. exists m, p. rewrite N.max_r by lia. simpl. auto.
    + rewrite N.max_l by lia. destruct A2 as [->|(m' & p' & Hm' & Hp' & ->)]; [lia|].
      right. exists m', p'. simpl. auto.
Qed.

(** Updating the index table when one measurement is appended to its vector. *)
Lemma index_append g (ix : list (EdgeID * nat)) (vec' : EdgeID -> list (Meas S)) m :
  pg_wf g -> ids_ok m ->
  mfind edge_ltb (meas_edge m) (pg_index g) = None ->
  vec' (meas_edge m) = vec g (meas_edge m) ++ [m] ->
  (forall e, vec' e = vec g e \/ vec' e = vec g e ++ [m]) ->
  ix = memplace edge_ltb (meas_edge m) (length (vec g (meas_edge m))) (pg_index g) ->
  msorted edge_ltb ix /\
  forall e i, mfind edge_ltb e ix = Some i <->
     exists m', nth_error (vec' e) i = Some m' /\ meas_edge m' = e.
Proof.
  intros W Hi Hnone Hv Hv' ->. split.
  { apply memplace_sorted; [apply edge_total|apply (wf_index_sorted _ W)]. }
  unfold memplace. rewrite Hnone. intros e i.
  destruct (edgeid_eqb e (meas_edge m)) eqn:Ee.
  - assert (e = meas_edge m) as ->.
    { unfold edgeid_eqb, poseid_eqb in Ee. rewrite !andb_true_iff, !N.eqb_eq in Ee.
      destruct e as [[] []], (meas_edge m) as [[] []]; simpl in *. intuition congruence. }
    rewrite (mfind_mset_eq edge_ltb edge_total). rewrite Hv. split.
    + intros E; inversion E; subst. exists m. split; auto.
      rewrite nth_error_app2 by lia. rewrite PeanoNat.Nat.sub_diag. reflexivity.
    + intros [m' [E1 E2]]. f_equal.
      destruct (PeanoNat.Nat.lt_ge_cases i (length (vec g (meas_edge m)))).
      * rewrite nth_error_app1 in E1 by auto. exfalso.
        assert (mfind edge_ltb (meas_edge m) (pg_index g) = Some i) by (apply (wf_index _ W); eauto).
        congruence.
      * rewrite nth_error_app2 in E1 by auto.
        assert (i - length (vec g (meas_edge m)) < 1)%nat.
        { change 1%nat with (length [m]). apply nth_error_Some. congruence. }
        lia.
  - assert (Hne : e <> meas_edge m).
    { intros ->. unfold edgeid_eqb, poseid_eqb in Ee. rewrite !N.eqb_refl in Ee. discriminate. }
    rewrite (mfind_mset_neq edge_ltb edge_total) by auto. rewrite (wf_index _ W).
    destruct (Hv' e) as [->| ->]; [reflexivity|].
    split; intros [m' [E1 E2]]; exists m'; split; auto.
    + rewrite nth_error_app1; auto. apply nth_error_Some. congruence.
    + destruct (PeanoNat.Nat.lt_ge_cases i (length (vec g e))).
      * rewrite nth_error_app1 in E1; auto.
      * rewrite nth_error_app2 in E1 by auto. exfalso.
        destruct (i - length (vec g e))%nat as [|k]; simpl in E1.
        -- inversion E1; subst. congruence.
        -- destruct k; discriminate.
Qed.

Lemma hasMeasurement_find g m :
  hasMeasurement g (meas_src m) (meas_dst m) = false ->
  mfind edge_ltb (meas_edge m) (pg_index g) = None.
Proof.
  unfold hasMeasurement, meas_edge. destruct (mfind _ _ _); auto; discriminate.
Qed.

Lemma dims_ok_shape g m : dims_ok g m = true <-> shape_ok (pg_d g) m.
Proof.
  unfold dims_ok, shape_ok. rewrite !andb_true_iff, !PeanoNat.Nat.eqb_eq. tauto.
Qed.

Lemma own_poses_priv id m : mr1 m = id -> mr2 m = id -> own_poses id m = [mp1 m; mp2 m].
Proof. intros <- E. unfold own_poses. rewrite E, !N.eqb_refl. reflexivity. Qed.

Lemma in_app_mid {A} (x y : A) l1 l2 l3 :
  In x (l1 ++ (l2 ++ [y]) ++ l3) <-> x = y \/ In x (l1 ++ l2 ++ l3).
Proof. rewrite !in_app_iff. simpl. intuition auto. Qed.

(** What an accepted insertion does. *)
Lemma addOdometry_wf g m g' :
  ids_ok m -> pg_wf g -> mr1 m = pg_id g -> mr2 m = pg_id g -> mp2 m = mp1 m + 1 ->
  addOdometry g m = Ok g' -> pg_wf g'.
Proof.
  intros Hi W E1 E2 E3 HA. unfold addOdometry in HA.
  destruct (hasMeasurement g (meas_src m) (meas_dst m)) eqn:Hhas; [inversion HA; subst; auto|].
  repeat (apply check_Ok in HA; destruct HA as [? HA]).
  inversion HA as [HA']; clear HA. 
  pose proof (hasMeasurement_find _ _ Hhas) as Hnone.
  assert (Ho : is_odom (pg_id g) m = true).
  { unfold is_odom. rewrite E1, E2, E3, !N.eqb_refl. reflexivity. }
  pose proof (edge_kind_odom _ _ Hi Ho) as Hk.
  assert (Hvec : vec g (meas_edge m) = pg_odom g) by (unfold vec; rewrite Hk; auto).
  assert (Hn : u32 (u32 (mp2 m) + 1) = mp2 m + 1).
  { destruct Hi as (A & B & C & D). rewrite (u32_small (mp2 m)) by lia. apply u32_small; lia. }
  set (g1 := set_pg_odom (set_pg_n g (N.max (pg_n g) (mp2 m + 1))) (pg_odom g ++ [m])).
  destruct (index_append g (pg_index g') (vec g1) m W Hi Hnone) as [IS IX].
  { unfold vec; rewrite Hk. reflexivity. }
  { intros e. unfold vec, g1. destruct (edge_isOdometry e); [right|left]; reflexivity. }
  { subst g'. cbn. rewrite Hvec, app_length. cbn. f_equal. lia. }
  assert (Hmem : forall x, In x (measurements g') <-> x = m \/ In x (measurements g)).
  { intros x. subst g'. unfold measurements. cbn. rewrite !in_app_iff. simpl. intuition auto. }
  assert (Hmem' : forall x, In x (m :: measurements g) <-> In x (measurements g')).
  { intros x. rewrite Hmem. simpl. intuition auto. }
  assert (Hnn : pg_n g' = N.max (pg_n g) (mp2 m + 1)) by (subst g'; cbn; rewrite Hn; auto).
  assert (Hid : pg_id g' = pg_id g) by (subst g'; reflexivity).
  constructor; subst g'; cbn [pg_id pg_odom pg_priv pg_shared pg_index pg_n pg_lpub pg_npub
     pg_nbrs pg_active pg_nposes pg_priors pg_d pg_r set_pg_index set_pg_odom set_pg_n] in *.
  - intros x Hx. apply Hmem in Hx. destruct Hx as [->|Hx]; auto. apply (wf_ids _ W); auto.
  - intros x Hx. apply Hmem in Hx. destruct Hx as [->|Hx]; auto. apply (wf_dims _ W); auto.
  - intros x Hx. apply in_app_iff in Hx. destruct Hx as [Hx|[<-|[]]]; auto. apply (wf_odom _ W); auto.
  - apply (wf_priv _ W).
  - apply (wf_shared _ W).
  - exact IS.
  - exact IX.
  - eapply num_poses_spec_perm; [exact Hmem'|]. rewrite Hn. apply num_poses_spec_cons.
    + rewrite own_poses_priv by auto. discriminate.
    + rewrite own_poses_priv by auto. simpl. intros p [<-|[<-|[]]]; lia.
    + exists (mp2 m). rewrite own_poses_priv by auto. simpl. auto.
    + apply (wf_n _ W).
  - apply (wf_lpub_sorted _ W).
  - apply (wf_lpub _ W).
  - apply (wf_npub_sorted _ W).
  - apply (wf_npub _ W).
  - apply (wf_nbrs_sorted _ W).
  - apply (wf_nbrs _ W).
  - apply (wf_active_sorted _ W).
  - apply (wf_active _ W).
  - apply (wf_nposes_sorted _ W).
  - apply (wf_priors_sorted _ W).
  - intros i X HX. destruct (wf_priors _ W _ _ HX). split; auto. lia.
Qed.

Lemma addPrivate_wf g m g' :
  ids_ok m -> pg_wf g -> mr1 m = pg_id g -> mr2 m = pg_id g -> mp2 m <> mp1 m + 1 ->
  addPrivateLoopClosure g m = Ok g' -> pg_wf g'.
Proof.
  intros Hi W E1 E2 E3 HA. unfold addPrivateLoopClosure in HA.
  destruct (hasMeasurement g (meas_src m) (meas_dst m)) eqn:Hhas; [inversion HA; subst; auto|].
  repeat (apply check_Ok in HA; destruct HA as [? HA]).
  inversion HA as [HA']; clear HA.
  pose proof (hasMeasurement_find _ _ Hhas) as Hnone.
  assert (Ho : is_priv (pg_id g) m = true).
  { unfold is_priv. rewrite E1, E2, !N.eqb_refl. simpl. apply negb_true_iff, N.eqb_neq; auto. }
  destruct (edge_kind_priv _ _ Hi Ho) as [Hk1 Hk2].
  assert (Hvec : vec g (meas_edge m) = pg_priv g) by (unfold vec; rewrite Hk1, Hk2; auto).
  assert (Hn : u32 (N.max (u64 (mp1 m + 1)) (u64 (mp2 m + 1))) = N.max (mp1 m) (mp2 m) + 1).
  { destruct Hi as (A & B & C & D). rewrite !u64_small by lia. rewrite u32_small; lia. }
  set (g1 := set_pg_priv g (pg_priv g ++ [m])).
  destruct (index_append g (pg_index g') (vec g1) m W Hi Hnone) as [IS IX].
  { unfold vec; rewrite Hk1, Hk2. reflexivity. }
  { intros e. unfold vec, g1. destruct (edge_isOdometry e); [left; reflexivity|].
    destruct (edge_isPrivate e); [right|left]; reflexivity. }
  { subst g'. cbn. rewrite Hvec, app_length. cbn. f_equal. lia. }
  assert (Hmem : forall x, In x (measurements g') <-> x = m \/ In x (measurements g)).
  { intros x. subst g'. unfold measurements. cbn. rewrite !in_app_iff. simpl. intuition auto. }
  assert (Hmem' : forall x, In x (m :: measurements g) <-> In x (measurements g')).
  { intros x. rewrite Hmem. simpl. intuition auto. }
  constructor; subst g'; cbn [pg_id pg_odom pg_priv pg_shared pg_index pg_n pg_lpub pg_npub
     pg_nbrs pg_active pg_nposes pg_priors pg_d pg_r set_pg_index set_pg_priv set_pg_n] in *.
  - intros x Hx. apply Hmem in Hx. destruct Hx as [->|Hx]; auto. apply (wf_ids _ W); auto.
  - intros x Hx. apply Hmem in Hx. destruct Hx as [->|Hx]; auto. apply (wf_dims _ W); auto.
  - apply (wf_odom _ W).
  - intros x Hx. apply in_app_iff in Hx. destruct Hx as [Hx|[<-|[]]]; auto. apply (wf_priv _ W); auto.
  - apply (wf_shared _ W).
  - exact IS.
  - exact IX.
  - eapply num_poses_spec_perm; [exact Hmem'|]. rewrite Hn. apply num_poses_spec_cons.
    + rewrite own_poses_priv by auto. discriminate.
    + rewrite own_poses_priv by auto. simpl. intros p [<-|[<-|[]]]; lia.
    + rewrite own_poses_priv by auto. destruct (N.leb_spec (mp1 m) (mp2 m)).
      * exists (mp2 m). simpl. split; auto. lia.
      * exists (mp1 m). simpl. split; auto. lia.
    + apply (wf_n _ W).
  - apply (wf_lpub_sorted _ W).
  - apply (wf_lpub _ W).
  - apply (wf_npub_sorted _ W).
  - apply (wf_npub _ W).
  - apply (wf_nbrs_sorted _ W).
  - apply (wf_nbrs _ W).
  - apply (wf_active_sorted _ W).
  - apply (wf_active _ W).
  - apply (wf_nposes_sorted _ W).
  - apply (wf_priors_sorted _ W).
  - intros i X HX. destruct (wf_priors _ W _ _ HX). split; auto. lia.
Qed.

Lemma note_shared_fields g own p r q :
  let g' := note_shared g own p r q in
  pg_id g' = pg_id g /\ pg_d g' = pg_d g /\ pg_r g' = pg_r g /\
  pg_odom g' = pg_odom g /\ pg_priv g' = pg_priv g /\ pg_shared g' = pg_shared g /\
  pg_index g' = pg_index g.
Proof. cbn. repeat split; reflexivity. Qed.

Lemma addShared_wf g m g' :
  ids_ok m -> pg_wf g -> is_shared (pg_id g) m = true ->
  addSharedLoopClosure g m = Ok g' -> pg_wf g'.
Proof.
  intros Hi W Ho HA. unfold addSharedLoopClosure in HA.
  destruct (hasMeasurement g (meas_src m) (meas_dst m)) eqn:Hhas; [inversion HA; subst; auto|].
  apply check_Ok in HA. destruct HA as [Hdim HA].
  apply bind_Ok in HA. destruct HA as [g1 [Hg1 HA]].
  inversion HA as [HA']; clear HA.
  pose proof (hasMeasurement_find _ _ Hhas) as Hnone.
  destruct (edge_kind_shared _ _ Hi Ho) as [Hk1 Hk2].
  assert (Hvec : vec g (meas_edge m) = pg_shared g) by (unfold vec; rewrite Hk1, Hk2; auto).
  (* normal form of g1 *)
  set (own := own_pose (pg_id g) m). set (oth := other_pose (pg_id g) m).
  set (orb := other_robot (pg_id g) m).
  assert (N1 : g1 = note_shared g (robot_id own) (frame_id own) (robot_id oth) (frame_id oth)
            /\ robot_id oth = orb /\ own_poses (pg_id g) m = [frame_id own]
            /\ frame_id own < 4294967295 /\ robot_id own < 4294967295
            /\ frame_id oth < 4294967295 /\ robot_id oth < 4294967295).
  { destruct Hi as (A & B & C & D). unfold own, oth, orb, own_pose, other_pose, other_robot, own_poses.
    unfold is_shared in Ho. rewrite orb_true_iff, !andb_true_iff, !negb_true_iff, !N.eqb_eq, !N.eqb_neq in Ho.
    destruct (mr1 m =? pg_id g) eqn:R1; apply check_Ok in Hg1; destruct Hg1 as [Hc Hg1];
      inversion Hg1; subst g1; clear Hg1.
    - rewrite negb_true_iff in Hc. rewrite Hc. simpl. repeat split; auto.
    - rewrite Hc. simpl. repeat split; auto. }
  destruct N1 as (N1 & Noth & Nown & B1 & B2 & B3 & B4).
  assert (Hn : u32 (u32 (frame_id own) + 1) = frame_id own + 1).
  { rewrite (u32_small (frame_id own)) by lia. apply u32_small; lia. }
  assert (Ppose : pose_of (robot_id own) (frame_id own) = own).
  { unfold pose_of. rewrite !u32_small by lia. destruct own; reflexivity. }
  assert (Qpose : pose_of (robot_id oth) (frame_id oth) = oth).
  { unfold pose_of. rewrite !u32_small by lia. destruct oth; reflexivity. }
  assert (Rpose : u32 (robot_id oth) = orb).
  { rewrite u32_small by lia. auto. }
  set (g2 := set_pg_shared g (pg_shared g ++ [m])).
  destruct (index_append g (pg_index g') (vec g2) m W Hi Hnone) as [IS IX].
  { unfold vec; rewrite Hk1, Hk2. reflexivity. }
  { intros e. unfold vec, g2. destruct (edge_isOdometry e); [left; reflexivity|].
    destruct (edge_isPrivate e); [left|right]; reflexivity. }
  { subst g' g1. cbn. rewrite Hvec, app_length. cbn. f_equal. lia. }
  assert (Hmem : forall x, In x (measurements g') <-> x = m \/ In x (measurements g)).
  { intros x. subst g' g1. unfold measurements. cbn. rewrite !in_app_iff. simpl. intuition auto. }
  assert (Hmem' : forall x, In x (m :: measurements g) <-> In x (measurements g')).
  { intros x. rewrite Hmem. simpl. intuition auto. }
  constructor; subst g' g1; cbn [note_shared pg_id pg_odom pg_priv pg_shared pg_index pg_n pg_lpub pg_npub
     pg_nbrs pg_active pg_nposes pg_priors pg_d pg_r set_pg_index set_pg_shared set_pg_n set_pg_lpub
     set_pg_npub set_pg_nbrs set_pg_active] in *; rewrite ?Ppose, ?Qpose, ?Rpose.
  - intros x Hx. apply Hmem in Hx. destruct Hx as [->|Hx]; auto. apply (wf_ids _ W); auto.
  - intros x Hx. apply Hmem in Hx. destruct Hx as [->|Hx]; auto. apply (wf_dims _ W); auto.
  - apply (wf_odom _ W).
  - apply (wf_priv _ W).
  - intros x Hx. apply in_app_iff in Hx. destruct Hx as [Hx|[<-|[]]]; auto. apply (wf_shared _ W); auto.
  - exact IS.
  - exact IX.
  - eapply num_poses_spec_perm; [exact Hmem'|]. rewrite Hn. apply num_poses_spec_cons.
    + rewrite Nown. discriminate.
    + rewrite Nown. simpl. intros p [<-|[]]; lia.
    + exists (frame_id own). rewrite Nown. simpl. auto.
    + apply (wf_n _ W).
  - apply sins_sorted; [apply pose_total|apply (wf_lpub_sorted _ W)].
  - intros p. rewrite (sins_In _ pose_total), (wf_lpub _ W). split.
    + intros [->|[x [Hx E]]]; [exists m|exists x]; rewrite in_app_iff; simpl; auto.
    + intros [x [Hx E]]. rewrite in_app_iff in Hx. destruct Hx as [Hx|[<-|[]]]; [right|left; auto].
      exists x; auto.
  - apply sins_sorted; [apply pose_total|apply (wf_npub_sorted _ W)].
  - intros p. rewrite (sins_In _ pose_total), (wf_npub _ W). split.
    + intros [->|[x [Hx E]]]; [exists m|exists x]; rewrite in_app_iff; simpl; auto.
    + intros [x [Hx E]]. rewrite in_app_iff in Hx. destruct Hx as [Hx|[<-|[]]]; [right|left; auto].
      exists x; auto.
  - apply sins_sorted; [apply Nltb_total|apply (wf_nbrs_sorted _ W)].
  - intros p. rewrite (sins_In _ Nltb_total), (wf_nbrs _ W). split.
    + intros [->|[x [Hx E]]]; [exists m|exists x]; rewrite in_app_iff; simpl; auto.
    + intros [x [Hx E]]. rewrite in_app_iff in Hx. destruct Hx as [Hx|[<-|[]]]; [right|left; auto].
      exists x; auto.
  - apply mset_sorted; [apply Nltb_total|apply (wf_active_sorted _ W)].
  - intros k. rewrite (mset_keys _ Nltb_total), (sins_In _ Nltb_total), (wf_active _ W). reflexivity.
  - apply (wf_nposes_sorted _ W).
  - apply (wf_priors_sorted _ W).
  - intros i X HX. destruct (wf_priors _ W _ _ HX). split; auto. lia.
Qed.

Lemma addMeasurement_wf g m g' :
  ids_ok m -> pg_wf g -> addMeasurement g m = Ok g' -> pg_wf g'.
Proof.
  intros Hi W HA. unfold addMeasurement in HA. pose proof Hi as (A & B & C & D).
  rewrite u64_small in HA by lia.
  destruct (mr1 m =? pg_id g) eqn:R1, (mr2 m =? pg_id g) eqn:R2; simpl in HA.
  - apply N.eqb_eq in R1, R2. destruct (mp1 m + 1 =? mp2 m) eqn:P.
    + apply N.eqb_eq in P. eapply addOdometry_wf; eauto.
    + apply N.eqb_neq in P. eapply addPrivate_wf; eauto.
  - eapply addShared_wf; eauto. unfold is_shared. rewrite R1, R2. reflexivity.
  - eapply addShared_wf; eauto. unfold is_shared. rewrite R1, R2. reflexivity.
  - inversion HA; subst; auto.
Qed.

Lemma pg_empty_wf g : pg_wf (pg_empty g).
Proof.
  constructor; cbn.
  1-5: intros ? [].
  - exact I.
  - intros e i. split; [discriminate|]. intros [m [E _]]. unfold vec in E. cbn in E.
    destruct (edge_isOdometry e), (edge_isPrivate e); destruct i; discriminate.
  - split; [intros ? ? []|]. auto.
  - exact I.
  - intros; split; [intros []|intros (? & [] & _)].
  - exact I.
  - intros; split; [intros []|intros (? & [] & _)].
  - exact I.
  - intros; split; [intros []|intros (? & [] & _)].
  - exact I.
  - tauto.
  - exact I.
  - exact I.
  - intros i X [].
Qed.

Lemma newPoseGraph_wf id r d g : newPoseGraph id r d = Ok g -> pg_wf g.
Proof.
  unfold newPoseGraph. intros E. apply check_Ok in E. destruct E as [_ E]. inversion E. apply pg_empty_wf.
Qed.

Lemma setMeasurements_wf g ms g' :
  Forall ids_ok ms -> setMeasurements g ms = Ok g' -> pg_wf g'.
Proof.
  intros HF E. unfold setMeasurements in E.
  eapply (foldM_inv (fun g => pg_wf g) ids_ok); eauto.
  - intros; eapply addMeasurement_wf; eauto.
  - apply pg_empty_wf.
Qed.

(** Operations that leave the bookkeeping fields alone. *)
Lemma wf_irrelevant g g' :
  pg_id g' = pg_id g -> pg_d g' = pg_d g -> pg_r g' = pg_r g -> pg_n g' = pg_n g ->
  pg_odom g' = pg_odom g -> pg_priv g' = pg_priv g -> pg_shared g' = pg_shared g ->
  pg_index g' = pg_index g -> pg_lpub g' = pg_lpub g -> pg_npub g' = pg_npub g ->
  pg_nbrs g' = pg_nbrs g ->
  msorted N.ltb (pg_active g') -> (forall k, In k (map fst (pg_active g')) <-> In k (pg_nbrs g)) ->
  msorted pose_ltb (pg_nposes g') ->
  msorted N.ltb (pg_priors g') ->
  (forall i X, In (i, X) (pg_priors g') -> i < pg_n g /\ mcols X = Datatypes.S (pg_d g) /\ mrows X = pg_r g) ->
  pg_wf g -> pg_wf g'.
Proof.
  intros E1 E2 E3 E4 E5 E6 E7 E8 E9 E10 E11 A1 A2 B1 C1 C2 W.
  constructor; unfold measurements, vec, dims_ok in *;
    rewrite ?E1, ?E2, ?E3, ?E4, ?E5, ?E6, ?E7, ?E8, ?E9, ?E10, ?E11; auto; try apply W.
Qed.

Lemma setNeighborActive_wf g k b g' : pg_wf g -> setNeighborActive g k b = Ok g' -> pg_wf g'.
Proof.
  intros W E. unfold setNeighborActive in E.
  destruct (hasNeighbor g k) eqn:Hn; simpl in E; [|inversion E; subst; auto].
  destruct (mfind N.ltb k (pg_active g)) as [b0|] eqn:F; [|discriminate].
  inversion E; clear E.
  assert (HA : pg_active (if eqb b0 b then g else clearDataMatrices g) = pg_active g)
    by (destruct (eqb b0 b); reflexivity).
  eapply wf_irrelevant; [..|exact W]; subst; cbn; rewrite ?HA;
    try (destruct (eqb b0 b); reflexivity).
  - apply mset_sorted; [apply Nltb_total|apply (wf_active_sorted _ W)].
  - intros x. rewrite (mset_keys _ Nltb_total), (wf_active _ W). split; auto. intros [->|]; auto.
    apply (smem_In _ Nltb_total _ _ (wf_nbrs_sorted _ W)). exact Hn.
  - destruct (eqb b0 b); apply W.
  - destruct (eqb b0 b); apply W.
  - destruct (eqb b0 b); apply W.
Qed.

Lemma fold_mset_sorted (ks : list N) a :
  msorted N.ltb a -> msorted N.ltb (fold_left (fun a k => mset N.ltb k true a) ks a).
Proof.
  revert a; induction ks as [|k ks IH]; simpl; auto. intros a Ha. apply IH.
  apply mset_sorted; auto. apply Nltb_total.
Qed.

Lemma fold_mset_keys (ks : list N) a x :
  In x (map fst (fold_left (fun a k => mset N.ltb k true a) ks a)) <-> In x ks \/ In x (map fst a).
Proof.
  revert a; induction ks as [|k ks IH]; simpl; [tauto|]. intros a.
  rewrite IH, (mset_keys _ Nltb_total). intuition auto.
Qed.

Lemma fold_mset_find (ks : list N) a k :
  mfind N.ltb k (fold_left (fun a k => mset N.ltb k true a) ks a)
  = if smem N.ltb k ks || existsb (N.eqb k) ks then Some true else mfind N.ltb k a.
Proof.
  revert a; induction ks as [|k' ks IH]; simpl; auto. intros a. rewrite IH.
  destruct (N.eqb_spec k k').
  - subst k'. rewrite N.ltb_irrefl, !orb_true_l || rewrite N.ltb_irrefl.
    simpl. rewrite (mfind_mset_eq _ Nltb_total). destruct (smem _ _ _ || _); reflexivity.
  - rewrite (mfind_mset_neq _ Nltb_total) by auto. simpl.
    destruct (existsb (N.eqb k) ks) eqn:Ex.
    + rewrite !orb_true_r. reflexivity.
    + rewrite !orb_false_r.
      destruct (smem N.ltb k ks) eqn:Es.
      * exfalso. clear - Es Ex. induction ks as [|y ks IH]; simpl in *; [discriminate|].
        rewrite orb_false_iff in Ex. destruct Ex as [E1 E2].
        destruct (k <? y) eqn:L1; [discriminate|]. destruct (y <? k) eqn:L2; auto.
        rewrite N.ltb_ge in *. rewrite N.eqb_neq in E1. lia.
      * destruct (k <? k') eqn:L1; auto. destruct (k' <? k) eqn:L2; auto.
        rewrite N.ltb_ge in *. lia.
Qed.

Lemma pg_reset_wf g : pg_wf g -> pg_wf (pg_reset g).
Proof.
  intros W. eapply wf_irrelevant; [..|exact W]; try reflexivity; cbn.
  - apply fold_mset_sorted. apply W.
  - intros k. rewrite fold_mset_keys, (wf_active _ W). tauto.
  - intros i X [].
Qed.

Lemma constructQ_fields g g' b : constructQ g = Ok (g', b) -> g' = g \/ exists Q, g' = set_pg_Q g (Some Q).
Proof.
  unfold constructQ. intros E. apply bind_Ok in E. destruct E as [[Q|] [_ E]]; inversion E; eauto.
Qed.
Lemma constructG_fields g g' b : constructG g = Ok (g', b) -> g' = g \/ exists Q, g' = set_pg_G g (Some Q).
Proof.
  unfold constructG. intros E. apply bind_Ok in E. destruct E as [[Q|] [_ E]]; inversion E; eauto.
Qed.

Lemma set_Q_wf g q : pg_wf g -> pg_wf (set_pg_Q g q).
Proof. intros W. eapply wf_irrelevant; [..|exact W]; try reflexivity; apply W. Qed.
Lemma set_G_wf g q : pg_wf g -> pg_wf (set_pg_G g q).
Proof. intros W. eapply wf_irrelevant; [..|exact W]; try reflexivity; apply W. Qed.
Lemma set_precon_wf g q : pg_wf g -> pg_wf (set_pg_precon g q).
Proof. intros W. eapply wf_irrelevant; [..|exact W]; try reflexivity; apply W. Qed.

Lemma constructQ_wf g g' b : pg_wf g -> constructQ g = Ok (g', b) -> pg_wf g'.
Proof. intros W E. destruct (constructQ_fields _ _ _ E) as [->|[Q ->]]; auto using set_Q_wf. Qed.
Lemma constructG_wf g g' b : pg_wf g -> constructG g = Ok (g', b) -> pg_wf g'.
Proof. intros W E. destruct (constructG_fields _ _ _ E) as [->|[Q ->]]; auto using set_G_wf. Qed.

Lemma constructData_wf g g' b : pg_wf g -> constructDataMatrices g = Ok (g', b) -> pg_wf g'.
Proof.
  intros W E. unfold constructDataMatrices in E.
  apply bind_Ok in E. destruct E as [[g1 b1] [E1 E]].
  assert (W1 : pg_wf g1).
  { destruct (pg_Q g); [inversion E1; subst; auto|]. eapply constructQ_wf; eauto. }
  destruct b1; simpl in E; [|inversion E; subst; auto].
  apply bind_Ok in E. destruct E as [[g2 b2] [E2 E]]. inversion E; subst.
  destruct (pg_G g1); [inversion E2; subst; auto|]. eapply constructG_wf; eauto.
Qed.

Lemma quadratic_wf g g' Q : pg_wf g -> quadraticMatrix g = Ok (g', Q) -> pg_wf g'.
Proof.
  intros W E. unfold quadraticMatrix in E. apply bind_Ok in E. destruct E as [[g1 b1] [E1 E]].
  assert (W1 : pg_wf g1).
  { destruct (pg_Q g); [inversion E1; subst; auto|]. eapply constructQ_wf; eauto. }
  destruct (pg_Q g1); inversion E; subst; auto.
Qed.
Lemma linear_wf g g' Q : pg_wf g -> linearMatrix g = Ok (g', Q) -> pg_wf g'.
Proof.
  intros W E. unfold linearMatrix in E. apply bind_Ok in E. destruct E as [[g1 b1] [E1 E]].
  assert (W1 : pg_wf g1).
  { destruct (pg_G g); [inversion E1; subst; auto|]. eapply constructG_wf; eauto. }
  destruct (pg_G g1); inversion E; subst; auto.
Qed.
Lemma precon_wf c g g' b : pg_wf g -> hasPreconditioner c g = Ok (g', b) -> pg_wf g'.
Proof.
  intros W E. unfold hasPreconditioner in E. apply bind_Ok in E. destruct E as [[g1 b1] [E1 E]].
  inversion E; subst. destruct (pg_precon g); [inversion E1; subst; auto|].
  unfold constructPreconditioner in E1. apply bind_Ok in E1. destruct E1 as [[g2 Q] [E1 E2]].
  pose proof (quadratic_wf _ _ _ W E1). destruct (c (precon_matrix Q)); inversion E2; subst; auto using set_precon_wf.
Qed.

(** Recomputing the public pose sets changes nothing. *)
Lemma updatePublic_same g : pg_wf g -> updatePublicPoseIDs g = Ok g.
Proof.
  intros W. unfold updatePublicPoseIDs.
  set (step := fun (g : PoseGraph S) (m : Meas S) => _).
  assert (Hgen : forall L g0, pg_id g0 = pg_id g ->
     (forall m, In m L -> is_shared (pg_id g) m = true /\ ids_ok m) ->
     ssorted pose_ltb (pg_lpub g0) -> ssorted pose_ltb (pg_npub g0) ->
     exists lp np, foldM step g0 L = Ok (set_pg_npub (set_pg_lpub g0 lp) np) /\
       ssorted pose_ltb lp /\ ssorted pose_ltb np /\
       (forall p, In p lp <-> In p (pg_lpub g0) \/ exists m, In m L /\ own_pose (pg_id g) m = p) /\
       (forall p, In p np <-> In p (pg_npub g0) \/ exists m, In m L /\ other_pose (pg_id g) m = p)).
  { induction L as [|m L IH]; intros g0 Hid HL S1 S2; simpl.
    - exists (pg_lpub g0), (pg_npub g0). repeat split; auto.
      + destruct g0; reflexivity.
      + intros [Hp|(m & [] & _)]; auto.
      + intros [Hp|(m & [] & _)]; auto.
    - destruct (HL m (or_introl eq_refl)) as [Hsh Hi].
      assert (Hst : step g0 m = Ok (set_pg_npub (set_pg_lpub g0 (sins pose_ltb (own_pose (pg_id g) m) (pg_lpub g0)))
                                     (sins pose_ltb (other_pose (pg_id g) m) (pg_npub g0)))).
      { unfold step, own_pose, other_pose. rewrite Hid. destruct Hi as (A & B & C & D).
        unfold is_shared in Hsh. unfold pose_of. rewrite !u32_small by lia.
        destruct (mr1 m =? pg_id g), (mr2 m =? pg_id g); simpl in Hsh; try discriminate; reflexivity. }
      rewrite Hst. simpl.
      set (g1 := set_pg_npub _ _).
      destruct (IH g1) as (lp & np & E & T1 & T2 & T3 & T4); auto.
      { intros x Hx. apply HL. right; auto. }
      { cbn. apply sins_sorted; auto. apply pose_total. }
      { cbn. apply sins_sorted; auto. apply pose_total. }
      exists lp, np. split; [rewrite E; reflexivity|]. repeat split; auto.
      + rewrite T3. cbn. rewrite (sins_In _ pose_total). intros [[->|Hp]|(x & Hx & Ep)]; eauto.
      + rewrite T3. cbn. rewrite (sins_In _ pose_total). intros [Hp|(x & [<-|Hx] & Ep)]; eauto.
      + rewrite T4. cbn. rewrite (sins_In _ pose_total). intros [[->|Hp]|(x & Hx & Ep)]; eauto.
      + rewrite T4. cbn. rewrite (sins_In _ pose_total). intros [Hp|(x & [<-|Hx] & Ep)]; eauto. }
  destruct (Hgen (pg_shared g) (set_pg_npub (set_pg_lpub g []) [])) as (lp & np & E & T1 & T2 & T3 & T4);
    try exact I; auto.
  { intros m Hm. split; [apply (wf_shared _ W); auto|]. apply (wf_ids _ W).
    unfold measurements. rewrite !in_app_iff. auto. }
  rewrite E. f_equal.
  assert (lp = pg_lpub g) as ->.
  { apply (ssorted_ext _ pose_total); auto; [apply W|]. intros p. rewrite T3, (wf_lpub _ W). cbn. tauto. }
  assert (np = pg_npub g) as ->.
  { apply (ssorted_ext _ pose_total); auto; [apply W|]. intros p. rewrite T4, (wf_npub _ W). cbn. tauto. }
  destruct g; reflexivity.
Qed.

(** Writing weights through a pointer. *)
(** Same graph up to weights and flags of the measurements. *)
Record weq g g' : Prop := {
  weq_id : pg_id g' = pg_id g; weq_d : pg_d g' = pg_d g; weq_r : pg_r g' = pg_r g;
  weq_n : pg_n g' = pg_n g;
  weq_odom : map strip (pg_odom g') = map strip (pg_odom g);
  weq_priv : map strip (pg_priv g') = map strip (pg_priv g);
  weq_shared : map strip (pg_shared g') = map strip (pg_shared g);
  weq_index : pg_index g' = pg_index g;
  weq_lpub : pg_lpub g' = pg_lpub g; weq_npub : pg_npub g' = pg_npub g;
  weq_nbrs : pg_nbrs g' = pg_nbrs g; weq_active : pg_active g' = pg_active g;
  weq_nposes : pg_nposes g' = pg_nposes g; weq_priors : pg_priors g' = pg_priors g }.

Lemma modify_weq g p w f : weq g (modify g p (fun m => set_mfixed f (set_mweight w m))).
Proof.
  destruct p; constructor; cbn; try reflexivity; apply list_update_map; reflexivity.
Qed.

Lemma map_eq_nth {A B} (h : A -> B) l l' : map h l = map h l' ->
  forall i x, nth_error l i = Some x -> exists y, nth_error l' i = Some y /\ h y = h x.
Proof.
  revert l'. induction l as [|a l IH]; intros [|b l'] E [|i] x Hx; simpl in *; try discriminate.
  - inversion E. inversion Hx; subst. eauto.
  - inversion E. eauto.
Qed.

Lemma map_eq_in {A B} (h : A -> B) l l' : map h l = map h l' ->
  forall x, In x l -> exists y, In y l' /\ h y = h x.
Proof.
  intros E x Hx. apply (in_map h) in Hx. rewrite E in Hx. apply in_map_iff in Hx.
  destruct Hx as [y [Hy Hin]]; eauto.
Qed.

Lemma strip_facts m m' : strip m = strip m' ->
  mr1 m = mr1 m' /\ mr2 m = mr2 m' /\ mp1 m = mp1 m' /\ mp2 m = mp2 m' /\ mR m = mR m' /\ mt m = mt m'.
Proof. unfold strip. intros E; inversion E. auto 10. Qed.

Lemma weq_measurements g g' : weq g g' -> map strip (measurements g') = map strip (measurements g).
Proof.
  intros W. unfold measurements. rewrite !map_app, (weq_odom _ _ W), (weq_priv _ _ W), (weq_shared _ _ W). reflexivity.
Qed.

Lemma weq_vec g g' e : weq g g' -> map strip (vec g' e) = map strip (vec g e).
Proof.
  intros W. unfold vec. destruct (edge_isOdometry e); [apply W|]. destruct (edge_isPrivate e); apply W.
Qed.

Lemma weq_wf g g' : weq g g' -> pg_wf g -> pg_wf g'.
Proof.
  intros E W. pose proof (weq_measurements _ _ E) as EM.
  assert (Fshared : forall (f : Meas S -> PoseID) , (forall a b, strip a = strip b -> f a = f b) ->
      forall p, (exists m, In m (pg_shared g') /\ f m = p) <-> (exists m, In m (pg_shared g) /\ f m = p)).
  { intros f Hf p. split; intros [m [Hm <-]].
    - destruct (map_eq_in _ _ _ (weq_shared _ _ E) _ Hm) as [y [Hy Hs]]. exists y. split; auto.
    - destruct (map_eq_in _ _ _ (eq_sym (weq_shared _ _ E)) _ Hm) as [y [Hy Hs]]. exists y. split; auto. }
  assert (Fshared' : forall (f : Meas S -> N) , (forall a b, strip a = strip b -> f a = f b) ->
      forall p, (exists m, In m (pg_shared g') /\ f m = p) <-> (exists m, In m (pg_shared g) /\ f m = p)).
  { intros f Hf p. split; intros [m [Hm <-]].
    - destruct (map_eq_in _ _ _ (weq_shared _ _ E) _ Hm) as [y [Hy Hs]]. exists y. split; auto.
    - destruct (map_eq_in _ _ _ (eq_sym (weq_shared _ _ E)) _ Hm) as [y [Hy Hs]]. exists y. split; auto. }
  constructor.
  - intros m Hm. destruct (map_eq_in _ _ _ EM _ Hm) as [y [Hy Hs]]. apply strip_facts in Hs.
    destruct Hs as (A1 & A2 & A3 & A4 & A5 & A6). pose proof (wf_ids _ W _ Hy) as Hi.
    unfold ids_ok in *. rewrite <- A1, <- A2, <- A3, <- A4. exact Hi.
  - intros m Hm. destruct (map_eq_in _ _ _ EM _ Hm) as [y [Hy Hs]]. apply strip_facts in Hs.
    destruct Hs as (A1 & A2 & A3 & A4 & A5 & A6). pose proof (wf_dims _ W _ Hy) as Hi.
    unfold dims_ok in *. rewrite <- A5, <- A6, (weq_d _ _ E). exact Hi.
  - intros m Hm. destruct (map_eq_in _ _ _ (weq_odom _ _ E) _ Hm) as [y [Hy Hs]]. apply strip_facts in Hs.
    destruct Hs as (A1 & A2 & A3 & A4 & A5 & A6). pose proof (wf_odom _ W _ Hy) as Hi.
    unfold is_odom in *. rewrite <- A1, <- A2, <- A3, <- A4, (weq_id _ _ E). exact Hi.
  - intros m Hm. destruct (map_eq_in _ _ _ (weq_priv _ _ E) _ Hm) as [y [Hy Hs]]. apply strip_facts in Hs.
    destruct Hs as (A1 & A2 & A3 & A4 & A5 & A6). pose proof (wf_priv _ W _ Hy) as Hi.
    unfold is_priv in *. rewrite <- A1, <- A2, <- A3, <- A4, (weq_id _ _ E). exact Hi.
  - intros m Hm. destruct (map_eq_in _ _ _ (weq_shared _ _ E) _ Hm) as [y [Hy Hs]]. apply strip_facts in Hs.
    destruct Hs as (A1 & A2 & A3 & A4 & A5 & A6). pose proof (wf_shared _ W _ Hy) as Hi.
    unfold is_shared in *. rewrite <- A1, <- A2, (weq_id _ _ E). exact Hi.
  - rewrite (weq_index _ _ E). apply W.
  - intros e i. rewrite (weq_index _ _ E), (wf_index _ W). pose proof (weq_vec _ _ e E) as EV.
    split; intros [m [Hm He]].
    + destruct (map_eq_nth _ _ _ (eq_sym EV) _ _ Hm) as [y [Hy Hs]]. exists y. split; auto.
      apply strip_facts in Hs. destruct Hs as (A1 & A2 & A3 & A4 & _ & _).
      rewrite <- He. unfold meas_edge, meas_src, meas_dst. rewrite A1, A2, A3, A4. reflexivity.
    + destruct (map_eq_nth _ _ _ EV _ _ Hm) as [y [Hy Hs]]. exists y. split; auto.
      apply strip_facts in Hs. destruct Hs as (A1 & A2 & A3 & A4 & _ & _).
      rewrite <- He. unfold meas_edge, meas_src, meas_dst. rewrite A1, A2, A3, A4. reflexivity.
  - rewrite (weq_id _ _ E), (weq_n _ _ E). destruct (wf_n _ W) as [N1 N2]. split.
    + intros m p Hm Hp. destruct (map_eq_in _ _ _ EM _ Hm) as [y [Hy Hs]]. apply (N1 y); auto.
      apply strip_facts in Hs. destruct Hs as (A1 & A2 & A3 & A4 & _ & _).
      unfold own_poses in *. rewrite A1, A2, A3, A4. exact Hp.
    + destruct N2 as [N2|(m & p & Hm & Hp & Hn)]; auto. right.
      destruct (map_eq_in _ _ _ (eq_sym EM) _ Hm) as [y [Hy Hs]]. exists y, p. repeat split; auto.
      apply strip_facts in Hs. destruct Hs as (A1 & A2 & A3 & A4 & _ & _).
      unfold own_poses in *. rewrite A1, A2, A3, A4. exact Hp.
  - rewrite (weq_lpub _ _ E). apply W.
  - intros p. rewrite (weq_lpub _ _ E), (weq_id _ _ E), (wf_lpub _ W). symmetry. apply Fshared.
    intros a b Hs. apply strip_facts in Hs. destruct Hs as (A1 & A2 & A3 & A4 & _ & _).
    unfold own_pose. rewrite A1, A2, A3, A4. reflexivity.
  - rewrite (weq_npub _ _ E). apply W.
  - intros p. rewrite (weq_npub _ _ E), (weq_id _ _ E), (wf_npub _ W). symmetry. apply Fshared.
    intros a b Hs. apply strip_facts in Hs. destruct Hs as (A1 & A2 & A3 & A4 & _ & _).
    unfold other_pose. rewrite A1, A2, A3, A4. reflexivity.
  - rewrite (weq_nbrs _ _ E). apply W.
  - intros p. rewrite (weq_nbrs _ _ E), (weq_id _ _ E), (wf_nbrs _ W). symmetry. apply Fshared'.
    intros a b Hs. apply strip_facts in Hs. destruct Hs as (A1 & A2 & A3 & A4 & _ & _).
    unfold other_robot. rewrite A1, A2. reflexivity.
  - rewrite (weq_active _ _ E). apply W.
  - rewrite (weq_active _ _ E), (weq_nbrs _ _ E). apply W.
  - rewrite (weq_nposes _ _ E). apply W.
  - rewrite (weq_priors _ _ E). apply W.
  - rewrite (weq_priors _ _ E), (weq_n _ _ E), (weq_d _ _ E), (weq_r _ _ E). apply W.
Qed.

Lemma setPrior_wf g i X g' : pg_wf g -> setPrior g i X = Ok g' -> pg_wf g'.
Proof.
  intros W E. unfold setPrior in E.
  apply check_Ok in E. destruct E as [E1 E]. apply check_Ok in E. destruct E as [E2 E].
  apply check_Ok in E. destruct E as [E3 E]. inversion E; subst; clear E.
  apply N.ltb_lt in E1. apply PeanoNat.Nat.eqb_eq in E2, E3.
  eapply wf_irrelevant; [..|exact W]; try reflexivity; cbn; try apply W.
  - apply mset_sorted; [apply Nltb_total|apply W].
  - intros j Y HY.
    pose proof (mset_sorted _ Nltb_total i X _ (wf_priors_sorted _ W)) as HS.
    apply (mfind_In _ Nltb_total _ _ _ HS) in HY.
    destruct (N.eq_dec j i) as [->|Hne].
    + rewrite (mfind_mset_eq _ Nltb_total) in HY. inversion HY; subst. auto.
    + rewrite (mfind_mset_neq _ Nltb_total) in HY by auto.
      apply (mfind_In _ Nltb_total _ _ _ (wf_priors_sorted _ W)) in HY. apply (wf_priors _ W _ _ HY).
Qed.

Lemma pg_step_wf g o g' : op_ok o -> pg_wf g -> pg_step g o = Ok g' -> pg_wf g'.
Proof.
  intros Ho W E. destruct o; simpl in Ho, E; try (inversion E; subst; clear E).
  - eapply addMeasurement_wf; eauto.
  - eapply setMeasurements_wf; eauto.
  - apply pg_empty_wf.
  - apply pg_reset_wf; auto.
  - eapply wf_irrelevant; [..|exact W]; try reflexivity; try apply W.
  - eapply wf_irrelevant; [..|exact W]; try reflexivity; try apply W. exact Ho.
  - eapply wf_irrelevant; [..|exact W]; try reflexivity; try apply W; try exact I; intros ? ? [].
  - eapply setPrior_wf; eauto.
  - eapply setNeighborActive_wf; eauto.
  - eapply wf_irrelevant; [..|exact W]; try reflexivity; try apply W.
  - eapply wf_irrelevant; [..|exact W]; try reflexivity; try apply W.
  - eapply wf_irrelevant; [..|exact W]; try reflexivity; try apply W.
  - eapply wf_irrelevant; [..|exact W]; try reflexivity; try apply W.
  - apply bind_Ok in H1. destruct H1 as [[g1 b] [E1 E2]]. inversion E2; subst. eapply constructData_wf; eauto.
  - apply bind_Ok in H1. destruct H1 as [[g1 b] [E1 E2]]. inversion E2; subst. eapply quadratic_wf; eauto.
  - apply bind_Ok in H1. destruct H1 as [[g1 b] [E1 E2]]. inversion E2; subst. eapply linear_wf; eauto.
  - apply bind_Ok in H1. destruct H1 as [[g1 b] [E1 E2]]. inversion E2; subst. eapply precon_wf; eauto.
  - rewrite updatePublic_same in H1 by auto. inversion H1; subst; auto.
  - eapply weq_wf; [apply modify_weq|auto].
Qed.

Lemma pg_run_wf g os g' : Forall op_ok os -> pg_wf g -> pg_run g os = Ok g' -> pg_wf g'.
Proof.
  intros HF W E. unfold pg_run in E. eapply (foldM_inv (fun g => pg_wf g) op_ok); eauto.
  intros; eapply pg_step_wf; eauto.
Qed.

End PG.
