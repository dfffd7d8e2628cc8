(** Corollaries of the pose graph lemmas in the form used by PropPoseGraph, and
    concrete graphs for the examples and counterexamples. *)
From Coq Require Import List NArith ZArith Bool Lia Permutation Reals.
From Verif Require Import Base SMap Num ModelTypes ModelPoseGraph SpecPoseGraph SpecPGHist
  ProofsPoseGraph ProofsPGHist ProofsPGData ProofsLaplacian.
Import ListNotations.
Local Open Scope res_scope.

Section Main.
Context {S : Type} `{Num S}.
Implicit Types (g : PoseGraph S) (m : Meas S).

Lemma adds_dims L : forall g g', Forall ids_ok L -> foldM addMeasurement g L = Ok g' ->
  pg_d g' = pg_d g /\ pg_r g' = pg_r g.
Proof.
  induction L as [|m L IH]; intros g g' F E; simpl in E; [inversion E; auto|].
  apply bind_Ok in E. destruct E as (g1 & E1 & E2). inversion F; subst.
  destruct (add_effect g m g1 H2 E1) as (_ & A & B & _). destruct (IH g1 g' H3 E2). split; congruence.
Qed.

Lemma step_dims g o g' : pg_wf g -> op_ok o -> pg_step g o = Ok g' -> pg_d g' = pg_d g /\ pg_r g' = pg_r g.
Proof.
  intros W O E. destruct o; simpl in E, O; try (inversion E; subst; cbn; auto; fail).
  - destruct (add_effect g m g' O E) as (_ & A & B & _); auto.
  - destruct (adds_dims ms (pg_empty g) g' O E); auto.
  - unfold setPrior in E. repeat (apply check_Ok in E; destruct E as [? E]). inversion E; subst; auto.
  - unfold setNeighborActive in E. destruct (negb _); [inversion E; subst; auto|].
    destruct (mfind N.ltb k (pg_active g)) as [b0|]; inversion E; subst. cbn. destruct (eqb b0 b); cbn; auto.
  - apply bind_Ok in E. destruct E as [[g1 b] [E1 E2]]. inversion E2; subst.
    apply constructData_core in E1. unfold core_eq in E1. intuition.
  - apply bind_Ok in E. destruct E as [[g1 b] [E1 E2]]. inversion E2; subst.
    apply quadratic_core in E1. unfold core_eq in E1. intuition.
  - apply bind_Ok in E. destruct E as [[g1 b] [E1 E2]]. inversion E2; subst.
    apply linear_core in E1. unfold core_eq in E1. intuition.
  - apply bind_Ok in E. destruct E as [[g1 b] [E1 E2]]. inversion E2; subst.
    apply precon_core in E1. unfold core_eq in E1. intuition.
  - rewrite updatePublic_same in E by auto. inversion E; subst; auto.
  - inversion E; subst. destruct p; cbn; auto.
Qed.

Lemma run_dims os : forall g g', Forall op_ok os -> pg_wf g -> pg_run g os = Ok g' ->
  pg_d g' = pg_d g /\ pg_r g' = pg_r g.
Proof.
  induction os as [|o os IH]; intros g g' HF W E; unfold pg_run in *; simpl in *; [inversion E; auto|].
  apply bind_Ok in E. destruct E as [g1 [E1 E2]]. inversion HF; subst.
  destruct (step_dims _ _ _ W H2 E1). pose proof (pg_step_wf _ _ _ H2 W E1) as W1.
  destruct (IH g1 g' H3 W1 E2). split; congruence.
Qed.

Lemma reach_dims id r d os g : reach id r d os g -> pg_d g = d /\ pg_r g = r /\ (d <= r)%nat.
Proof.
  intros [R F]. apply bind_Ok in R. destruct R as (g0 & E0 & R).
  destruct (run_dims os g0 g F (newPoseGraph_wf _ _ _ _ E0) R) as [A B].
  unfold newPoseGraph, check in E0. destruct (Nat.leb_spec d r); inversion E0; subst. auto.
Qed.

Lemma store_reach id r d os g : reach id r d os g ->
  let K := kept id (h_in (h_run id os)) in
  map strip (pg_odom g) = map strip (filter (is_odom id) K) /\
  map strip (pg_priv g) = map strip (filter (is_priv id) K) /\
  map strip (pg_shared g) = map strip (filter (is_shared id) K).
Proof.
  intros R K. destruct (reach_facts _ _ _ _ _ R) as (E & W & F). pose proof (rf_odom _ _ F) as F1.
  pose proof (rf_priv _ _ F) as F2. pose proof (rf_shared _ _ F) as F3.
  rewrite E in F1, F2, F3. auto.
Qed.

Lemma irrelevant_ignored id r d os g m : reach id r d os g -> relevantb id m = false ->
  addMeasurement g m = Ok g.
Proof.
  intros R E. destruct (reach_facts _ _ _ _ _ R) as (I & _ & _). rewrite <- I in E.
  unfold addMeasurement. unfold relevantb in E. apply orb_false_iff in E. destruct E as [-> ->]. reflexivity.
Qed.

Lemma duplicate_ignored id r d os g m m' : reach id r d os g -> ids_ok m -> In m' (measurements g) ->
  same_edgeb m' m = true -> addMeasurement g m = Ok g.
Proof.
  intros R I Hin E. destruct (reach_facts _ _ _ _ _ R) as (Hid & W & _).
  assert (J : joins m' (meas_src m) (meas_dst m)).
  { unfold same_edgeb in E. rewrite !andb_true_iff, !N.eqb_eq in E. destruct E as [[[E1 E2] E3] E4].
    destruct I as (I1 & I2 & I3 & I4). unfold joins, meas_src, meas_dst, pose_of. simpl.
    rewrite !u32_small by (unfold two32; lia). auto. }
  assert (Hm : hasMeasurement g (meas_src m) (meas_dst m) = true).
  { destruct (find_exact g (meas_src m) (meas_dst m) W) as [(_ & _ & _ & _ & A & _)|(A & _)]; auto.
    exfalso. eapply A; eauto. }
  unfold addMeasurement, addOdometry, addPrivateLoopClosure, addSharedLoopClosure. rewrite Hm.
  destruct (negb (mr1 m =? pg_id g)%N && negb (mr2 m =? pg_id g)%N); auto.
  destruct ((mr1 m =? pg_id g)%N && (mr2 m =? pg_id g)%N); auto. destruct (u64 _ =? _)%N; auto.
Qed.

Lemma malformed_abort id r d os g m : reach id r d os g -> ids_ok m -> relevantb id m = true ->
  (forall m', In m' (measurements g) -> same_edgeb m' m = false) -> ~ shape_ok d m ->
  addMeasurement g m = Abort.
Proof.
  intros R I Rel New Sh. destruct (reach_dims _ _ _ _ _ R) as (Hdd & _). rewrite <- Hdd in Sh. destruct (reach_facts _ _ _ _ _ R) as (Hid & W & _).
  apply add_abort; auto; [rewrite Hid; auto|].
  destruct (find_exact g (meas_src m) (meas_dst m) W) as [(m' & _ & A & J & _)|(_ & A & _)]; auto.
  exfalso. specialize (New _ A). destruct J as (J1 & J2 & J3 & J4).
  destruct I as (I1 & I2 & I3 & I4). unfold meas_src, meas_dst, pose_of in *. simpl in *.
  rewrite u32_small in J1, J2, J3, J4 by (unfold two32; lia).
  unfold same_edgeb in New. rewrite J1, J2, J3, J4, !N.eqb_refl in New. discriminate.
Qed.

Lemma n_mono_reach id r d os g os' g' : reach id r d os g -> Forall op_ok os' ->
  forallb (fun o => negb (clears o)) os' = true -> pg_run g os' = Ok g' -> (pg_n g <= pg_n g')%N.
Proof.
  intros R. destruct (reach_facts _ _ _ _ _ R) as (_ & W & _). intros. eapply run_n_mono; eauto.
Qed.

Lemma ref_active_true g p : pg_wf g -> (exists m, deref g p = Some m) ->
  ref_active g p = match p with
                   | RShared i => match nth_error (pg_shared g) i with
                                  | Some m => act g (other_robot (pg_id g) m) | None => false end
                   | _ => true end.
Proof.
  intros W (m & D). unfold ref_active. destruct p; auto.
Qed.

Lemma partition_reach id r d os g : reach id r d os g ->
  exists A I, activeLoopClosures g = Ok A /\ inactiveLoopClosures g = Ok I /\
    Permutation (A ++ I) (allLoopClosures g) /\ NoDup (A ++ I) /\
    (forall p, In p (allLoopClosures g) <-> (exists m, deref g p = Some m) /\ forall i, p <> ROdom i) /\
    (forall p m, deref g p = Some m -> (forall i, p <> ROdom i) ->
       (In p A <-> is_priv id m = true \/
                   isNeighborActive g (other_robot id m) = Ok true)).
Proof.
  intros R. destruct (reach_facts _ _ _ _ _ R) as (Hid & W & _).
  destruct (active_lists g W) as [EA EI].
  eexists; eexists. split; [exact EA|]. split; [exact EI|].
  pose proof (filter_partition (ref_active g) (allLoopClosures g)) as P.
  split; [exact P|]. split.
  { apply Permutation_sym in P. eapply Permutation_NoDup; [exact P|]. apply allLoopClosures_NoDup. }
  split; [intros; apply allLoopClosures_spec|].
  intros p m D No. rewrite filter_In.
  assert (Hin : In p (allLoopClosures g)) by (apply allLoopClosures_spec; eauto).
  rewrite ref_active_true by eauto.
  destruct p as [i|i|i]; simpl in D.
  - exfalso. eapply No; eauto.
  - pose proof (wf_priv _ W _ (nth_error_In _ _ D)) as E. rewrite Hid in E. rewrite E. tauto.
  - rewrite D. pose proof (wf_shared _ W _ (nth_error_In _ _ D)) as E.
    rewrite Hid in *. assert (Ep : is_priv id m = false).
    { unfold is_shared in E. unfold is_priv. destruct (mr1 m =? id)%N, (mr2 m =? id)%N; simpl in *; auto; discriminate. }
    rewrite Ep. unfold act.
    destruct (isNeighborActive g (other_robot id m)) as [[|]| |]; intuition congruence.
Qed.

Lemma stats_reach id r d os g : reach id r d os g ->
  (forall x : S, neqb x n1 = true -> neqb x n0 = false) ->
  exists A L st, activeLoopClosures g = Ok A /\ map (deref g) A = map Some L /\
    statistics g = Ok st /\ total_lc st = length L /\
    accept_lc st = count (fun m => neqb (mweight m) n1) L /\
    reject_lc st = count (fun m => neqb (mweight m) n0) L /\
    undecided_lc st = count (fun m => negb (neqb (mweight m) n1) && negb (neqb (mweight m) n0)) L /\
    (accept_lc st + reject_lc st + undecided_lc st = total_lc st)%nat.
Proof.
  intros R HX. destruct (reach_facts _ _ _ _ _ R) as (_ & W & _).
  destruct (active_deref g W) as (A & EA & ED).
  exists A. eexists. eexists. split; [exact EA|]. split; [exact ED|].
  split; [apply (statistics_spec g W)|]. simpl.
  set (L := pg_priv g ++ active_shared g).
  assert (C : forall l : list (Meas S),
    (count w_acc l + count w_rej l +
     count (fun m => negb (neqb (mweight m) n1) && negb (neqb (mweight m) n0)) l = length l)%nat /\
    count w_rej l = count (fun m => neqb (mweight m) n0) l).
  { induction l as [|m l [IH1 IH2]]; [split; reflexivity|]. unfold count in *. simpl. unfold w_acc, w_rej in *.
    destruct (neqb (mweight m) n1) eqn:E1; simpl.
    - rewrite (HX _ E1). simpl. split; [|assumption]. rewrite <- IH1. simpl. lia.
    - destruct (neqb (mweight m) n0) eqn:E0; simpl; split; try lia. }
  destruct (C L) as [C1 C2]. fold L in C1, C2. repeat split; auto; try lia.
Qed.

Lemma cache_reach id r d os g0 g : newPoseGraph id r d = Ok g0 -> Forall op_ok os ->
  disciplined false g0 os -> pg_run g0 os = Ok g ->
  (forall g1 Q, quadraticMatrix g = Ok (g1, Q) ->
     forall g2 Q', quadraticMatrix (clearDataMatrices g) = Ok (g2, Q') -> Q = Q') /\
  (forall g1 G, linearMatrix g = Ok (g1, G) ->
     exists g2, linearMatrix (clearDataMatrices g) = Ok (g2, G)) /\
  (forall P, pg_precon g = Some P ->
     forall g2 Q', quadraticMatrix (clearDataMatrices g) = Ok (g2, Q') -> P = precon_matrix Q').
Proof.
  intros N0 F D Rn. pose proof (newPoseGraph_wf _ _ _ _ N0) as W0.
  destruct (run_coh os g0 g false F W0) as [C W]; auto.
  - intros _. unfold newPoseGraph, check in N0. destruct (Nat.leb d r); inversion N0; subst.
    split; simpl; discriminate.
  - apply cache_fresh; auto.
Qed.

Lemma construct_reach id r d os g : reach id r d os g ->
  constructDataMatrices g <> Abort /\
  forall g' b, constructDataMatrices g = Ok (g', b) ->
    (pg_Q g = None \/ pg_G g = None -> (b = true <-> needed_known g)) /\
    (b = false -> g' = g) /\
    (b = true -> pg_Q g' <> None /\ pg_G g' <> None).
Proof.
  intros R. destruct (reach_facts _ _ _ _ _ R) as (_ & W & _). split.
  - apply construct_no_abort; auto.
  - intros g' b E. destruct (construct_spec g g' b W E) as (A & B & C & _). auto.
Qed.

Lemma construct_disciplined id r d os g0 g g' b : newPoseGraph id r d = Ok g0 -> Forall op_ok os ->
  disciplined false g0 os -> pg_run g0 os = Ok g -> constructDataMatrices g = Ok (g', b) ->
  (b = true <-> needed_known g).
Proof.
  intros N0 F D Rn E. pose proof (newPoseGraph_wf _ _ _ _ N0) as W0.
  destruct (run_coh os g0 g false F W0) as [C W]; auto.
  - intros _. unfold newPoseGraph, check in N0. destruct (Nat.leb d r); inversion N0; subst.
    split; simpl; discriminate.
  - eapply construct_iff; eauto.
Qed.

Lemma constructQ_shape id r d os g : reach id r d os g -> no_self g -> last_private g ->
  exists g' b, constructQ g = Ok (g', b) /\
    (b = true -> exists Q, pg_Q g' = Some Q /\
       mrows Q = (Datatypes.S d * N.to_nat (pg_n g))%nat /\ mcols Q = mrows Q).
Proof.
  intros R Hs Hl. destruct (reach_dims _ _ _ _ _ R) as (<- & _). destruct (reach_facts _ _ _ _ _ R) as (_ & W & _).
  destruct (buildQ_shape g W Hs Hl) as (o & E & Sh). unfold constructQ. rewrite E. simpl.
  destruct o as [Q|]; eexists; eexists; (split; [reflexivity|]); [|discriminate].
  intros _. exists Q. split; [reflexivity|]. destruct (Sh Q eq_refl). split; lia.
Qed.

Lemma constructQ_ub id r d os g : reach id r d os g ->
  (exists m, In m (pg_odom g ++ pg_priv g) /\ mp1 m = mp2 m) \/
  ((1 <= d)%nat /\ pg_n g <> 0%N /\ ~ last_private g /\ needed_known g) ->
  constructQ g = UB.
Proof.
  intros R C. destruct (reach_facts _ _ _ _ _ R) as (_ & W & Rf). unfold constructQ.
  assert (E : buildQ g = UB); [|rewrite E; reflexivity].
  destruct C as [(m & Hm & E)|(Hd & Hn & Hl & Hk)].
  - apply (buildQ_self g m W); auto.
  - apply buildQ_ub; auto. destruct (reach_dims _ _ _ _ _ R) as (-> & _). auto.
Qed.
End Main.

(** ** Concrete graphs (integer scalars) *)

Definition ex_meas (r1 p1 r2 p2 : N) (x : Z) : Meas Z :=
  mkMeas r1 r2 p1 p2 (mident 2) (mlit 2 1 [[x]; [0%Z]]) 1%Z 2%Z false 1%Z.

(** Robot 0: three odometry edges, a private loop closure, shared edges with
    robots 1 and 2, an irrelevant edge and a repeated edge. *)
Definition ex_input : list (Meas Z) :=
  [ex_meas 0 0 0 1 1; ex_meas 0 1 0 2 1; ex_meas 0 2 0 3 1; ex_meas 0 0 0 3 3;
   ex_meas 0 1 1 0 5; ex_meas 2 4 0 3 6; ex_meas 1 0 2 0 7; ex_meas 0 1 0 2 9].
Definition ex_ops : list (pgop Z) := map PAdd ex_input.

Lemma ex_input_ok : Forall ids_ok ex_input.
Proof. unfold ex_input. repeat constructor. Qed.
Lemma ex_ops_ok : Forall op_ok ex_ops.
Proof. unfold ex_ops, ex_input. simpl. repeat constructor. Qed.
Lemma ex_input_shape : Forall (shape_ok 2) ex_input.
Proof. unfold ex_input. repeat constructor. Qed.

(** Run a history and test the result. *)
Definition run_test (os : list (pgop Z)) (P : PoseGraph Z -> bool) : bool :=
  match (do g0 <- newPoseGraph 0 3 2; pg_run g0 os) with Ok g => P g | _ => false end.
Lemma run_test_reach os P : run_test os P = true -> Forall op_ok os ->
  exists g, reach 0 3 2 os g /\ P g = true.
Proof.
  unfold run_test, reach. destruct (do g0 <- newPoseGraph 0 3 2; pg_run g0 os) as [g| |]; try discriminate.
  intros E F. exists g. auto.
Qed.
Lemma run_test_any os P : run_test os P = true ->
  exists g, (do g0 <- newPoseGraph 0 3 2; pg_run g0 os) = Ok g /\ P g = true.
Proof.
  unfold run_test. destruct (do g0 <- newPoseGraph 0 3 2; pg_run g0 os) as [g| |]; try discriminate.
  intros E. exists g. auto.
Qed.

(** Poses for all neighbours of [ex_input]. *)
Definition ex_pose (x : Z) : Mx Z := mlit 3 3 [[1;0;x]; [0;1;0]; [0;0;0]]%Z.
Definition ex_nbr : list (PoseID * Mx Z) :=
  [(mkPoseID 1 0, ex_pose 5); (mkPoseID 2 4, ex_pose 6)].
Lemma ex_nbr_sorted : msorted pose_ltb ex_nbr.
Proof. unfold ex_nbr, msorted, ssorted. simpl. repeat constructor. Qed.

(** Do the matrices handed out differ from a recomputation? *)
Definition mx_diff (A B : Mx Z) : bool :=
  existsb (fun i => existsb (fun j => negb (Z.eqb (A i j) (B i j))) (seq 0 (mcols A))) (seq 0 (mrows A)).
Definition stale_test (f : PoseGraph Z -> res (PoseGraph Z * Mx Z)) (g : PoseGraph Z) : bool :=
  match f g, f (clearDataMatrices g) with
  | Ok (_, Q), Ok (_, Q') => mx_diff Q Q'
  | _, _ => false
  end.
Lemma stale_test_spec f g : stale_test f g = true ->
  exists g1 Q g2 Q', f g = Ok (g1, Q) /\ f (clearDataMatrices g) = Ok (g2, Q') /\ Q <> Q'.
Proof.
  unfold stale_test. destruct (f g) as [[g1 Q]| |]; try discriminate.
  destruct (f (clearDataMatrices g)) as [[g2 Q']| |]; try discriminate.
  intros D. exists g1, Q, g2, Q'. repeat split; auto. intros E. subst Q'.
  unfold mx_diff in D. apply existsb_exists in D. destruct D as (i & _ & D).
  apply existsb_exists in D. destruct D as (j & _ & D). rewrite Z.eqb_refl in D. discriminate.
Qed.
Lemma stale_witness os f : run_test os (stale_test f) = true -> Forall op_ok os ->
  exists g, reach 0 3 2 os g /\
  exists g1 Q g2 Q', f g = Ok (g1, Q) /\ f (clearDataMatrices g) = Ok (g2, Q') /\ Q <> Q'.
Proof.
  intros T F. destruct (run_test_reach _ _ T F) as (g & R & D). exists g. split; auto.
  apply stale_test_spec; auto.
Qed.

Definition ex_filled : list (pgop Z) := ex_ops ++ [PSetNbr ex_nbr; PConstruct].
Lemma ex_filled_ok : Forall op_ok ex_filled.
Proof.
  unfold ex_filled. apply Forall_app. split; [apply ex_ops_ok|]. repeat constructor.
Qed.
