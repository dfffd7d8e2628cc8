(** The multi-robot example: what each robot stores. *)
From Coq Require Import List NArith ZArith Bool Arith Lia Lra Reals Permutation.
From Verif Require Import Base SMap Num RSum ModelTypes ModelPoseGraph ModelProblem ModelRobust ModelPoses ModelSolver ModelAgent ModelExample
  SpecPoseGraph SpecPGHist SpecCost SpecSolver SpecExample SpecInit SpecRun ProofsPoseGraph ProofsPGHist ProofsPGMain ProofsPGData ProofsCost ProofsCost2 ProofsCost4 ProofsExample ProofsExample2 ProofsInit3 ProofsRun2 ProofsRun4.
Import ListNotations.
Local Open Scope res_scope.

Lemma adds_useinact ms : forall g g' : PoseGraph R, foldM addMeasurement g ms = Ok g' -> pg_useinact g' = pg_useinact g.
Proof.
  induction ms as [|e ms IH]; intros g g' E; cbn in E; [injection E as <-; auto|]. apply bind_Ok in E. destruct E as (g1 & E1 & E). rewrite (IH _ _ E). clear E.
  unfold addMeasurement, addOdometry, addPrivateLoopClosure, addSharedLoopClosure in E1.
  destruct (_ && _) in E1; [injection E1 as <-; auto|]. destruct (_ && _) in E1.
  - destruct (_ =? _)%N in E1.
    + destruct (hasMeasurement _ _ _) in E1; [injection E1 as <-; auto|]. repeat (apply check_Ok in E1; destruct E1 as [_ E1]). injection E1 as <-. auto.
    + destruct (hasMeasurement _ _ _) in E1; [injection E1 as <-; auto|]. repeat (apply check_Ok in E1; destruct E1 as [_ E1]). injection E1 as <-. auto.
  - destruct (hasMeasurement _ _ _) in E1; [injection E1 as <-; auto|]. apply check_Ok in E1. destruct E1 as [_ E1]. apply bind_Ok in E1.
    destruct E1 as (g2 & E2 & E1). assert (F : pg_useinact g2 = pg_useinact g) by (destruct (_ =? _)%N in E2; apply check_Ok in E2; destruct E2 as [_ E2]; injection E2 as <-; auto).
    injection E1 as <-. exact F.
Qed.

Lemma h_act_adds id l : forall h : Hist R, (forall k, h_act h k = true) -> forall k, h_act (fold_left (h_add id) l h) k = true.
Proof.
  induction l as [|e l IH]; intros h Hh k; [apply Hh|]. cbn [fold_left]. apply IH. intros j. unfold h_add. cbn [h_act].
  destruct (_ && _); auto. unfold h_set. destruct (_ =? _)%N; auto.
Qed.

Lemma filter_seq lo hi n : (lo < hi)%nat -> (hi <= n)%nat ->
  filter (fun p => (N.of_nat lo <=? p)%N && (p + 1 <? N.of_nat hi)%N) (map N.of_nat (seq 0 (n - 1))) = map N.of_nat (seq lo (hi - lo - 1)).
Proof.
  intros H1 H2. replace (n - 1)%nat with (lo + ((hi - lo - 1) + (n - hi)))%nat by lia. rewrite !seq_app, !map_app, !filter_app. cbn [Nat.add].
  rewrite filter_no, filter_yes, filter_no; [rewrite app_nil_r; reflexivity| | |].
  - intros p Hp. apply in_map_iff in Hp. destruct Hp as (q & <- & Hq). apply in_seq in Hq. apply andb_false_iff. right. apply N.ltb_ge. lia.
  - intros p Hp. apply in_map_iff in Hp. destruct Hp as (q & <- & Hq). apply in_seq in Hq. apply andb_true_iff. split; [apply N.leb_le|apply N.ltb_lt]; lia.
  - intros p Hp. apply in_map_iff in Hp. destruct Hp as (q & <- & Hq). apply in_seq in Hq. apply andb_false_iff. left. apply N.leb_gt. lia.
Qed.
Lemma filter_map_comm {A B} (f : A -> B) (h : B -> bool) l : filter h (map f l) = map f (filter (fun a => h (f a)) l).
Proof. induction l as [|a l IH]; [reflexivity|]. cbn [map filter]. rewrite IH. destruct (h (f a)); reflexivity. Qed.
Lemma filter_and {A} (f h : A -> bool) l : filter (fun a => f a && h a) l = filter f (filter h l).
Proof. induction l as [|a l IH]; [reflexivity|]. cbn [filter]. destruct (h a); cbn [filter]; destruct (f a); cbn [andb]; rewrite IH; reflexivity. Qed.

Section D.
Context (d r : nat) (n m : N) (ds : list (Meas R)) (HDs : dataset_ok d r n m ds).
Notation rl := (relabel n m).
Let Hs : sizes_ok n m := proj1 HDs.

Lemma ds_edges : Forall (edge_in n) ds.
Proof. apply Forall_forall. intros e He. pose proof HDs as (_ & _ & _ & _ & _ & Q & _). unfold edge_in. destruct (Q e He) as (_ & _ & A & B & _). auto. Qed.
Lemma ds_shape : Forall (shape_ok d) ds.
Proof. apply Forall_forall. intros e He. pose proof HDs as (_ & _ & _ & _ & _ & Q & _). apply (Q e He). Qed.
Lemma ds_nodup : NoDup (map pair_of ds). Proof. apply HDs. Qed.
Lemma ds_weight : Forall (fun e => mweight e = 1%R) ds.
Proof. apply Forall_forall. intros e He. pose proof HDs as (_ & _ & _ & _ & _ & Q & _). apply (Q e He). Qed.

Lemma size_two k : (k < m)%N -> (2 <= size_of n m k)%N /\ (k * (n / m) + size_of n m k <= n)%N.
Proof.
  intros Hk. pose proof HDs as (_ & H2 & _). split; [|apply (size_pos n m k Hs Hk)]. unfold size_of. destruct (N.eqb_spec (k + 1) m) as [Em|]; [|exact H2].
  destruct (quot_ok n m Hs) as [_ Q]. assert ((k + 1) * (n / m) = k * (n / m) + n / m)%N by ring. rewrite Em in *. lia.
Qed.

(** The odometry of robot [k] is a chain from its first to its last pose. *)
Lemma odo_starts k : (k < m)%N -> map mp1 (map rl (filter (od n m k) ds)) = map N.of_nat (seq 0 (N.to_nat (size_of n m k) - 1)).
Proof.
  intros Hk. destruct (size_two k Hk) as [S2 SL]. pose proof HDs as (_ & _ & _ & _ & _ & _ & C). pose proof ds_edges as DE. rewrite Forall_forall in DE.
  set (lo := N.to_nat (k * (n / m))). set (hi := N.to_nat (k * (n / m) + size_of n m k)).
  assert (OW : forall p, ownsb n m k p = (N.of_nat lo <=? p)%N && (p <? N.of_nat hi)%N).
  { intros p. apply eq_true_iff_eq. rewrite andb_true_iff, N.leb_le, N.ltb_lt. fold (owns n m k p). rewrite (owns_size n m _ _ Hs). unfold lo, hi. rewrite !N2Nat.id. lia. }
  assert (F1 : filter (od n m k) ds = filter (both n m k) (filter next_pose ds)) by (rewrite <- filter_and; reflexivity).
  assert (F2 : filter (both n m k) (filter next_pose ds) = filter (fun e => (N.of_nat lo <=? mp1 e)%N && (mp1 e + 1 <? N.of_nat hi)%N) (filter next_pose ds)).
  { apply filter_ext_in. intros e He. apply filter_In in He. destruct He as [_ He]. unfold next_pose in He. apply N.eqb_eq in He. unfold both. rewrite !OW, He.
    apply eq_true_iff_eq. rewrite !andb_true_iff, !N.leb_le, !N.ltb_lt. lia. }
  assert (F3 : map mp1 (filter (od n m k) ds) = map N.of_nat (seq lo (hi - lo - 1))).
  { rewrite F1, F2. rewrite <- (filter_map_comm mp1 (fun p => (N.of_nat lo <=? p)%N && (p + 1 <? N.of_nat hi)%N)). rewrite C. apply filter_seq; unfold lo, hi; lia. }
  assert (F4 : map mp1 (map rl (filter (od n m k) ds)) = map (fun p => (p - N.of_nat lo)%N) (map mp1 (filter (od n m k) ds))).
  { rewrite !map_map. apply map_ext_in. intros e He. apply filter_In in He. destruct He as [Hin He]. apply andb_prop in He. destruct He as [He _]. unfold both in He. apply andb_prop in He.
    destruct He as [He _]. rewrite (ownsb_owner n m k) in He by (auto; apply (DE e Hin)). apply N.eqb_eq in He. cbn [relabel new_meas mp1]. rewrite <- He. unfold lo. rewrite N2Nat.id. reflexivity. }
  rewrite F4, F3, map_map. replace (hi - lo - 1)%nat with (N.to_nat (size_of n m k) - 1)%nat by (unfold hi, lo; lia). clear - lo.
  assert (G : forall w s, map (fun q => (N.of_nat q - N.of_nat lo)%N) (seq (lo + s) w) = map N.of_nat (seq s w)).
  { induction w as [|w IH]; intros s; [reflexivity|]. cbn [seq map]. f_equal; [lia|]. rewrite <- IH. f_equal. f_equal. lia. }
  specialize (G (N.to_nat (size_of n m k) - 1)%nat 0%nat). rewrite Nat.add_0_r in G. exact G.
Qed.

Lemma odo_len k : (k < m)%N -> length (map rl (filter (od n m k) ds)) = (N.to_nat (size_of n m k) - 1)%nat.
Proof. intros Hk. rewrite <- (map_length mp1), (odo_starts k Hk), map_length, seq_length. reflexivity. Qed.

Lemma odo_chain k : (k < m)%N -> chain d (map rl (filter (od n m k) ds)).
Proof.
  intros Hk. destruct (size_two k Hk) as [S2 SL]. pose proof (odo_starts k Hk) as E. pose proof (odo_len k Hk) as Ln. pose proof HDs as ((_ & _ & Hn & _) & _ & Hd & _ & _ & Q & _).
  split; [intros Z; rewrite Z in Ln; cbn in Ln; lia|]. split; [exact Hd|]. split; [rewrite Ln; unfold two64; remember (size_of n m k) as sz; clear - S2 SL Hn; generalize dependent (k * (n / m))%N; intros; lia|].
  intros j e Ej. pose proof (map_nth_error mp1 _ _ Ej) as E1. rewrite E in E1.
  assert (Hj : (j < N.to_nat (size_of n m k) - 1)%nat) by (rewrite <- Ln; apply nth_error_Some; congruence).
  assert (E2 : nth_error (map N.of_nat (seq 0 (N.to_nat (size_of n m k) - 1))) j = Some (N.of_nat j)).
  { apply map_nth_error. rewrite (nth_error_nth' _ 0%nat) by (rewrite seq_length; auto). rewrite seq_nth; auto. }
  rewrite E2 in E1. injection E1 as E1. apply nth_error_In in Ej. apply in_map_iff in Ej. destruct Ej as (e0 & <- & He). apply filter_In in He. destruct He as [Hin He].
  pose proof ds_edges as DE. rewrite Forall_forall in DE. destruct (rl_kinds n m Hs k e0 (DE e0 Hin)) as (K1 & _). rewrite He in K1. unfold is_odom in K1.
  apply andb_prop in K1. destruct K1 as [_ K1]. apply N.eqb_eq in K1. split; [auto|]. split; [rewrite K1, <- E1; lia|]. destruct (Q e0 Hin) as (_ & _ & _ & _ & _ & _ & SH). exact SH.
Qed.

(** The pose graph of robot [k]. *)
Record stored (k : N) (g : PoseGraph R) : Prop := {
  st_wf : pg_wf g; st_coh : coh g; st_id : pg_id g = k; st_d : pg_d g = d; st_r : pg_r g = r; st_priors : pg_priors g = [];
  st_n : pg_n g = size_of n m k; st_base : base g;
  st_odom : pg_odom g = map rl (filter (od n m k) ds); st_shared : pg_shared g = map rl (filter (one_end n m k) ds);
  st_priv : pg_priv g = map rl (filter (pr n m k) ds);
  st_act : forall e, In e (pg_shared g) -> isNeighborActive g (other_robot k e) = Ok true;
  st_knows : knows k (map rl ds) g }.

Lemma robot_graph k : (k < m)%N -> exists g0 g, newPoseGraph k r d = Ok g0 /\ setMeasurements g0 (robot_input n m k ds) = Ok g /\ stored k g.
Proof.
  intros Hk. destruct (size_two k Hk) as [S2 SL]. pose proof HDs as (_ & _ & Hd & Hr & ND & Q & _). pose proof ds_edges as DE. pose proof DE as DE'. rewrite Forall_forall in DE'.
  destruct (robot_stores n m Hs k r d ds Hr DE ds_shape ND) as (g & E & E1 & E2 & E3). apply bind_Ok in E. destruct E as (g0 & E0 & E). exists g0, g. split; [exact E0|]. split; [exact E|].
  assert (FI : Forall ids_ok (robot_input n m k ds)).
  { apply Forall_forall. intros e He. apply (Permutation_in _ (input_perm n m Hs k ds DE)) in He. apply filter_In in He. destruct He as [He _].
    apply in_map_iff in He. destruct He as (e0 & <- & I). apply (rl_kinds n m Hs k e0 (DE' e0 I)). }
  assert (C : clean k r d [PSetMeas (robot_input n m k ds)] g).
  { exists g0. split; [exact E0|]. split; [constructor; [exact FI|constructor]|]. split.
    - cbn [disciplined reads cleans]. split; [discriminate|]. intros; reflexivity.
    - unfold pg_run. cbn [foldM pg_step]. rewrite E. reflexivity. }
  destruct (clean_facts _ _ _ _ _ C) as (W & K & RH). destruct (reach_dims _ _ _ _ _ RH) as (D1 & D2 & _). destruct (reach_facts _ _ _ _ _ RH) as (D3 & _ & _).
  pose proof E as EA. unfold setMeasurements in EA. destruct (adds_keep _ _ _ EA) as [K1 _]. pose proof (adds_useinact _ _ _ EA) as K2.
  assert (Z : pg_priors (pg_empty g0) = [] /\ pg_useinact (pg_empty g0) = false).
  { unfold newPoseGraph in E0. apply check_Ok in E0. destruct E0 as [_ E0]. injection E0 as <-. split; reflexivity. }
  destruct Z as [Z1 Z2].
  assert (PE : Permutation (pg_odom g ++ pg_priv g ++ pg_shared g) (filter (relevantb k) (map rl ds))) by (rewrite E1, E2, E3; exact (input_perm n m Hs k ds DE)).
  assert (LastOdo : exists e, In e (pg_odom g) /\ (mr1 e = k /\ mr2 e = k) /\ (mp2 e + 1 = size_of n m k)%N).
  { pose proof (odo_chain k Hk) as (_ & _ & _ & CH). pose proof (odo_len k Hk) as Ln. rewrite <- E1 in CH, Ln.
    destruct (nth_error (pg_odom g) (N.to_nat (size_of n m k) - 2)) as [e|] eqn:Ee; [|apply nth_error_None in Ee; lia].
    exists e. destruct (CH _ _ Ee) as (_ & P2 & _). apply nth_error_In in Ee. split; [exact Ee|]. split; [|rewrite P2; lia].
    pose proof (wf_odom _ W e Ee) as O. unfold is_odom in O. rewrite D3 in O. apply andb_prop in O. destruct O as [O _]. apply andb_prop in O. destruct O as [O O']. apply N.eqb_eq in O, O'. auto. }
  assert (PN : pg_n g = size_of n m k).
  { apply (num_poses_spec_unique (pg_id g) (measurements g)); [exact (wf_n _ W)|]. rewrite D3. split.
    - intros e p He Hp. unfold measurements in He. apply (Permutation_in _ PE) in He. apply filter_In in He. destruct He as [He _]. apply in_map_iff in He. destruct He as (e0 & <- & I).
      destruct (relabel_ok n m Hs e0 (DE' e0 I)) as (O1 & O2 & P1 & P2 & _). apply (owns_size n m _ _ Hs) in O1. apply (owns_size n m _ _ Hs) in O2. unfold own_poses in Hp.
      apply in_app_iff in Hp. destruct Hp as [Hp|Hp].
      + destruct (N.eqb_spec (mr1 (rl e0)) k) as [E4|]; [|destruct Hp]. destruct Hp as [<-|[]]. rewrite E4 in *. lia.
      + destruct (N.eqb_spec (mr2 (rl e0)) k) as [E4|]; [|destruct Hp]. destruct Hp as [<-|[]]. rewrite E4 in *. lia.
    - right. destruct LastOdo as (e & I & [R1 R2] & Le). exists e, (mp2 e). split; [unfold measurements; apply in_app_iff; auto|]. split; [|auto].
      unfold own_poses. rewrite R2, N.eqb_refl. apply in_app_iff. right. left. reflexivity. }
  constructor; auto; try congruence.
  - constructor; [congruence| |].
    + intros e He. assert (I : In e (map rl ds)).
      { assert (I : In e (filter (relevantb k) (map rl ds))) by (apply (Permutation_in _ PE); rewrite app_assoc; apply in_app_iff; auto). apply filter_In in I. apply I. }
      apply in_map_iff in I. destruct I as (e0 & <- & I). destruct (Q e0 I) as (_ & _ & _ & _ & NE & _).
      assert (RR : mr1 (rl e0) = k /\ mr2 (rl e0) = k).
      { apply in_app_iff in He. destruct He as [He|He].
        - pose proof (wf_odom _ W _ He) as O. unfold is_odom in O. rewrite D3 in O. apply andb_prop in O. destruct O as [O _]. apply andb_prop in O. destruct O as [O O']. apply N.eqb_eq in O, O'. auto.
        - pose proof (wf_priv _ W _ He) as O. unfold is_priv in O. rewrite D3 in O. apply andb_prop in O. destruct O as [O _]. apply andb_prop in O. destruct O as [O O']. apply N.eqb_eq in O, O'. auto. }
      destruct RR as [R1 R2]. destruct (relabel_ok n m Hs e0 (DE' e0 I)) as (_ & _ & P1 & P2 & _). rewrite R1 in P1. rewrite R2 in P2. intros Eq. apply NE. rewrite P1, P2, Eq. reflexivity.
    + destruct LastOdo as (e & I & _ & Le). exists e. split; [apply in_app_iff; auto|]. right. congruence.
  - intros e He. rewrite (active_spec _ _ _ _ _ (other_robot k e) RH). f_equal. apply andb_true_iff. split.
    + pose proof (refines_nbr g (h_run k [PSetMeas (robot_input n m k ds)]) (other_robot k e) W) as RN. destruct (reach_facts _ _ _ _ _ RH) as (_ & _ & RF). specialize (RN RF). rewrite D3 in RN. rewrite <- RN.
      unfold hasNeighbor. apply (smem_In _ Nltb_total _ _ (wf_nbrs_sorted _ W)). apply (wf_nbrs _ W). exists e. rewrite D3. auto.
    + unfold h_run. cbn [fold_left h_step]. apply h_act_adds. reflexivity.
Qed.
End D.
