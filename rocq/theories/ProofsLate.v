(** The cost after a prior was set on stored matrices. *)
From Coq Require Import List NArith ZArith Arith Bool Lia Reals Lra Permutation.
From Verif Require Import Base SMap Num RSum ModelTypes ModelPoseGraph ModelProblem SpecPoseGraph SpecPGHist SpecCost SpecLate
  ProofsPoseGraph ProofsPGHist ProofsPGData ProofsLaplacian ProofsPGMain ProofsPGCex ProofsCost ProofsCost2 ProofsCost3 ProofsCost4
  ProofsInit4 ProofsCostEx.
Import ListNotations.
Local Open Scope R_scope.
Implicit Types (g : PoseGraph R) (m : Meas R).

Lemma mset_new (k : N) (v : Mx R) (l : list (N * Mx R)) : ~ In k (map fst l) -> Permutation (mset N.ltb k v l) ((k, v) :: l).
Proof.
  induction l as [|[k' v'] l IH]; intros NI; cbn [mset]; [reflexivity|].
  destruct (N.ltb_spec k k'); [reflexivity|]. destruct (N.ltb_spec k' k).
  - rewrite IH by (intros Q; apply NI; right; exact Q). apply perm_swap.
  - exfalso. apply NI. left. cbn. lia.
Qed.

Lemma mset_old (k : N) (v : Mx R) (l : list (N * Mx R)) : msorted N.ltb l -> In k (map fst l) -> map fst (mset N.ltb k v l) = map fst l.
Proof.
  induction l as [|[k' v'] l IH]; intros MS HI; cbn [mset]; [contradiction|].
  destruct (N.ltb_spec k k').
  - exfalso. destruct HI as [HI|HI]; [cbn in HI; lia|].
    unfold msorted in MS. cbn [map fst] in MS. destruct MS as [F _].
    rewrite Forall_forall in F. specialize (F _ HI). apply N.ltb_lt in F. lia.
  - destruct (N.ltb_spec k' k); [|reflexivity]. cbn [map]. f_equal. apply IH.
    + unfold msorted in *. cbn [map] in MS. apply MS.
    + destruct HI as [HI|HI]; [cbn in HI; lia|exact HI].
Qed.

Lemma pull_lin r d i (P : Mx R) (X : nat -> nat -> R) :
  rsum r (fun a => pr_lin d i P (X a) a) = - prior_pull r d P (pose_blk d X i).
Proof.
  unfold prior_pull. rewrite <- !rsum_scal, <- rsum_add, <- rsum_opp. apply rsum_ext. intros a _.
  unfold pr_lin. rewrite rsum_S. f_equal. unfold pose_blk. f_equal.
  - rewrite <- rsum_scal. apply rsum_ext. intros c Hc. unfold pr_omg. apply Nat.ltb_lt in Hc. rewrite Hc. ring.
  - unfold pr_omg. rewrite Nat.ltb_irrefl. ring.
Qed.

(** Two graphs with the same edges and neighbour data. *)
Record alike_but_priors g g' : Prop := {
  ab_id : pg_id g' = pg_id g; ab_odom : pg_odom g' = pg_odom g; ab_priv : pg_priv g' = pg_priv g;
  ab_shared : pg_shared g' = pg_shared g; ab_act : forall k, isNeighborActive g' k = isNeighborActive g k;
  ab_d : pg_d g' = pg_d g; ab_r : pg_r g' = pg_r g; ab_use : pg_useinact g' = pg_useinact g }.

Lemma ab_active g g' m : alike_but_priors g g' -> active g' m = active g m.
Proof. intros A. unfold active, act. rewrite (ab_id _ _ A), (ab_act _ _ A). reflexivity. Qed.

Lemma ab_used g g' m : alike_but_priors g g' -> pg_nposes g' = pg_nposes g -> used g' m = used g m.
Proof.
  intros A E. unfold used, remote. rewrite (ab_active _ _ _ A), (ab_id _ _ A), (ab_use _ _ A), E. reflexivity.
Qed.

Lemma ab_Qform g g' x y : alike_but_priors g g' -> pg_useinact g = false ->
  map fst (pg_priors g') = map fst (pg_priors g) -> Qform g' x y = Qform g x y.
Proof.
  intros A U EP. unfold Qform, priv_form. rewrite (ab_odom _ _ A), (ab_priv _ _ A), (ab_d _ _ A), (ab_shared _ _ A).
  f_equal. f_equal.
  - apply rsumL_ext. intros m _. unfold qused. rewrite (ab_active _ _ _ A), (ab_use _ _ A), U.
    unfold sh_form, own_idx, is_out. rewrite (ab_d _ _ A), (ab_id _ _ A). reflexivity.
  - assert (ML : forall l : list (N * Mx R), nsumL (fun kv : N * Mx R => pr_form (pg_d g) (N.to_nat (fst kv)) x y) l =
                 nsumL (fun k => pr_form (pg_d g) (N.to_nat k) x y) (map fst l)).
    { induction l as [|kv l IH]; [rewrite !rsumL_nil; reflexivity|]. cbn [map]. rewrite !rsumL_cons, IH. reflexivity. }
    rewrite !ML, EP. reflexivity.
Qed.

Lemma ab_Gshared g g' x a : alike_but_priors g g' -> pg_nposes g' = pg_nposes g ->
  nsumL (fun m => match used g' m with Some Z => sh_lin g' m Z x a | None => 0 end) (pg_shared g') =
  nsumL (fun m => match used g m with Some Z => sh_lin g m Z x a | None => 0 end) (pg_shared g).
Proof.
  intros A E. rewrite (ab_shared _ _ A). apply rsumL_ext. intros m _. rewrite (ab_used _ _ _ A E).
  unfold sh_lin, own_idx, is_out. rewrite (ab_d _ _ A), (ab_id _ _ A). reflexivity.
Qed.

(** The stored quadratic matrix is that of the data. *)
Definition cohQ g : Prop := forall Q, pg_Q g = Some Q -> Qfull g = Ok Q.

Lemma late_facts g i P D g3 : pg_wf g -> cohQ g -> op_ok (PSetNbr D) -> late g i P D g3 ->
  pg_wf g3 /\ pg_wf (setNeighborPoses g D) /\ alike_but_priors (setNeighborPoses g D) g3 /\ alike_but_priors g (setNeighborPoses g D) /\
  pg_nposes g3 = D /\ pg_n g3 = pg_n g /\
  pg_priors g3 = mset N.ltb i P (pg_priors g) /\ (i < pg_n g)%N /\ mcols P = S (pg_d g) /\ mrows P = pg_r g /\
  pg_G g3 = None /\ exists Q, pg_Q g3 = Some Q /\ Qfull g = Ok Q.
Proof.
  intros W K OK (g1 & g2 & E1 & E2 & ->). pose proof (constructData_core _ _ _ E1) as C.
  assert (W1 : pg_wf g1) by (eapply constructData_wf; eauto).
  pose proof (setPrior_wf _ _ _ _ W1 E2) as W2.
  assert (HQ : exists Q, pg_Q g1 = Some Q /\ Qfull g = Ok Q).
  { clear - E1 W K. unfold constructDataMatrices in E1. apply bind_Ok in E1. destruct E1 as [[g0 b0] [A E1]].
    destruct b0; cbn in E1; [|discriminate].
    assert (exists Q, pg_Q g0 = Some Q /\ Qfull g = Ok Q) as (Q & HQ & FQ).
    { destruct (pg_Q g) eqn:PQ; [inversion A; subst; eauto|]. unfold constructQ in A. apply bind_Ok in A.
      destruct A as [[Q|] [BQ A]]; inversion A; subst. cbn. exists Q. split; [reflexivity|]. apply (buildQ_full g W Q BQ). }
    apply bind_Ok in E1. destruct E1 as [[g2 b2] [B E1]]. inversion E1; subst. exists Q. split; [|exact FQ].
    destruct (pg_G g0) eqn:PG; [inversion B; subst; auto|]. unfold constructG in B. apply bind_Ok in B.
    destruct B as [[G|] [_ B]]; inversion B; subst. cbn. auto. }
  destruct HQ as (Q & HQ & FQ).
  unfold core_eq in C. destruct C as (C1 & C2 & C3 & C4 & C5 & C6 & C7 & C8 & C9 & C10 & C11 & C12 & _).
  assert (HA : forall k, isNeighborActive g1 k = isNeighborActive g k)
    by (intros; unfold isNeighborActive, hasNeighbor; rewrite C5, C10; reflexivity).
  pose proof E2 as E3. unfold setPrior in E3. apply check_Ok in E3. destruct E3 as [I1 E3]. apply check_Ok in E3. destruct E3 as [I2 E3].
  apply check_Ok in E3. destruct E3 as [I3 E3]. injection E3 as <-.
  apply N.ltb_lt in I1. apply Nat.eqb_eq in I2, I3.
  split; [apply (pg_step_wf _ (PSetNbr D) _ OK W2 eq_refl)|]. split; [apply (pg_step_wf _ (PSetNbr D) _ OK W eq_refl)|].
  split; [constructor; cbn; auto|]. split; [constructor; cbn; auto|].
  cbn. rewrite C11. repeat (split; [congruence|]). exists Q. auto.
Qed.

(** What [qp_f] computes from the stored Q and a linear term built anew. *)
Lemma late_val g i P D g3 X g' v : pg_wf g -> cohQ g -> handed_ok (pg_r g) (pg_d g) D -> late g i P D g3 ->
  qp_f g3 X = Ok (g', v) ->
  v = rsum (pg_r g) (fun a => / 2 * Qform g (X a) (X a) + Glin g3 (X a) a) /\ needed_known g3 /\
  mrows X = pg_r g /\ mcols X = (S (pg_d g) * N.to_nat (pg_n g))%nat.
Proof.
  intros W K [OK HD] L E. destruct (late_facts _ _ _ _ _ W K OK L) as (W3 & _ & A & A0 & ED & EN & _ & _ & _ & _ & G0 & Q & HQ & FQ).
  pose proof (ab_d _ _ A) as Dd. pose proof (ab_r _ _ A) as Dr. cbn in Dd, Dr.
  unfold qp_f in E. apply check_Ok in E. destruct E as [H1 E]. apply check_Ok in E. destruct E as [H2 E].
  apply Nat.eqb_eq in H1, H2. rewrite Dr in H1. rewrite Dd, EN in H2.
  apply bind_Ok in E. destruct E as ([[g1 Q1] G] & EQ & E). apply require_Ok in E. destruct E as [HR E].
  injection E as _ <-.
  unfold qp_data, quadraticMatrix in EQ. rewrite HQ in EQ. cbn in EQ. rewrite HQ in EQ. cbn in EQ.
  apply bind_Ok in EQ. destruct EQ as ([g2 G2] & EL & EQ). injection EQ as <- <- <-.
  unfold linearMatrix in EL. rewrite G0 in EL. apply bind_Ok in EL. destruct EL as ([g4 b4] & EC & EL).
  unfold constructG in EC. apply bind_Ok in EC. destruct EC as (o & BG & EC).
  destruct o as [G1|].
  2:{ injection EC as <- _. rewrite G0 in EL. discriminate. }
  injection EC as <- _. cbn in EL. injection EL as <- <-.
  destruct (needed_of_G g3 _ W3 BG) as [NK ->].
  apply andb_prop in HR. destruct HR as [HR _]. apply andb_prop in HR. destruct HR as [HM _].
  unfold can_mul in HM. apply Nat.eqb_eq in HM.
  destruct (Qfull_form g Q (fun _ => 0) (fun _ => 0) W FQ) as [SQ _].
  split; [|auto]. assert (EC : mcols X = mrows Q) by congruence.
  rewrite <- H1, rsum_add, rsum_scal. f_equal.
  - replace (1 / 2) with (/ 2) by lra. numr. f_equal. unfold mdot. cbn [mmul mrows mcols mat]. apply rsum_ext. intros a _.
    rewrite SQ, EC, <- (Qfull_bil g Q) by auto. apply mul_dot_bil.
  - unfold mdot. apply rsum_ext. intros a Ha. rewrite H2, <- Dd, <- EN. apply Gval_form; auto.
    + apply (nposes_used g3 W3). intros p Z HZ. rewrite ED in HZ. rewrite Dr, Dd. apply HD in HZ. exact HZ.
    + rewrite Dr, <- H1. exact Ha.
Qed.

Lemma ab_needed g g' : alike_but_priors g g' -> pg_nposes g' = pg_nposes g -> needed_known g' -> needed_known g.
Proof.
  intros A E NK m Hm HA. rewrite <- (ab_id _ _ A), <- E. apply NK; [rewrite (ab_shared _ _ A); auto|].
  rewrite (ab_id _ _ A), (ab_act _ _ A). exact HA.
Qed.

Lemma clean_dims id r d os g : clean id r d os g -> pg_wf g /\ cohQ g /\ pg_r g = r /\ pg_d g = d.
Proof.
  intros C. destruct (clean_facts _ _ _ _ _ C) as (W & K & RH). destruct (reach_dims _ _ _ _ _ RH) as (E1 & E2 & _).
  split; [exact W|]. split; [exact (coh_Q _ K)|auto].
Qed.

(** ** The pose had no prior *)
Lemma late_new_core g i P D g3 X g' v :
  pg_wf g -> cohQ g -> pg_useinact g = false -> handed_ok (pg_r g) (pg_d g) D -> ~ In i (map fst (pg_priors g)) -> late g i P D g3 ->
  qp_f g3 X = Ok (g', v) ->
  v = local_cost (setNeighborPoses g D) X - local_cost (setNeighborPoses g D) (fun _ _ => 0)
      - prior_pull (pg_r g) (pg_d g) P (pose_blk (pg_d g) X (N.to_nat i)).
Proof.
  intros W K U HD NI L E.
  destruct (late_val _ _ _ _ _ _ _ _ W K HD L E) as (-> & NK & _ & _).
  destruct (late_facts _ _ _ _ _ W K (proj1 HD) L) as (W3 & WD & A & A0 & ED & EN & EP & _).
  assert (EN' : pg_nposes g3 = pg_nposes (setNeighborPoses g D)) by (rewrite ED; reflexivity).
  change (fun _ _ : nat => 0) with zeroX.
  rewrite <- fval_cost by (auto; apply (ab_needed _ _ A EN' NK)).
  rewrite <- (Ropp_involutive (prior_pull _ _ _ _)), <- pull_lin. unfold Rminus. rewrite Ropp_involutive.
  unfold fval. change (pg_r (setNeighborPoses g D)) with (pg_r g). rewrite <- rsum_add. apply rsum_ext. intros a _.
  rewrite (ab_Qform _ _ (X a) (X a) A0 U eq_refl). unfold Glin.
  rewrite (ab_Gshared _ _ (X a) a A EN'), EP, (ab_d _ _ A). cbn [setNeighborPoses pg_d set_pg_G set_pg_nposes pg_priors].
  rewrite (rsumL_perm _ _ _ (mset_new i P _ NI)), rsumL_cons. cbn [fst snd]. lra.
Qed.

Theorem late_new id r d os g i P D g3 X g' v :
  clean id r d os g -> pg_useinact g = false -> handed_ok r d D -> ~ In i (map fst (pg_priors g)) -> late g i P D g3 ->
  qp_f g3 X = Ok (g', v) ->
  v = local_cost (setNeighborPoses g D) X - local_cost (setNeighborPoses g D) (fun _ _ => 0)
      - prior_pull r d P (pose_blk d X (N.to_nat i)).
Proof.
  intros C U HD NI L E. destruct (clean_dims _ _ _ _ _ C) as (W & K & <- & <-).
  exact (late_new_core _ _ _ _ _ _ _ _ W K U HD NI L E).
Qed.

(** ** The pose had a prior already *)
Lemma mset_In (k : N) (v : Mx R) (l : list (N * Mx R)) j Y : msorted N.ltb l ->
  (In (j, Y) (mset N.ltb k v l) <-> (j = k /\ Y = v) \/ (j <> k /\ In (j, Y) l)).
Proof.
  induction l as [|[k' v'] l IH]; intros MS; cbn [mset].
  - cbn. split; [intros [E|[]]; injection E as <- <-; auto|]. intros [[-> ->]|[_ []]]. auto.
  - unfold msorted in MS. cbn [map fst ssorted] in MS. destruct MS as [F MS]. rewrite Forall_forall in F.
    assert (FK : forall x Z, In (x, Z) l -> (k' < x)%N).
    { intros x Z HI. apply N.ltb_lt, F. apply (in_map fst) in HI. exact HI. }
    destruct (N.ltb_spec k k'); [|destruct (N.ltb_spec k' k)].
    + cbn [In]. split.
      * intros [E|[E|E]].
        -- injection E as <- <-. auto.
        -- injection E as <- <-. right. split; [lia|auto].
        -- right. specialize (FK _ _ E). split; [lia|auto].
      * intros [[-> ->]|[_ E]]; auto.
    + cbn [In]. rewrite (IH MS). split.
      * intros [E|[E|E]]; [|auto|tauto]. injection E as <- <-. right. split; [lia|auto].
      * tauto.
    + assert (k = k') by lia. subst k'. cbn [In]. split.
      * intros [E|E]; [injection E as <- <-; auto|]. specialize (FK _ _ E). right. split; [lia|auto].
      * intros [[-> ->]|[N0 [E|E]]]; auto. injection E as <- _. lia.
Qed.

Lemma late_reprior g i P D g3 : pg_wf g -> cohQ g -> op_ok (PSetNbr D) -> late g i P D g3 -> reprior g i P D g3.
Proof.
  intros W K OK L. destruct (late_facts _ _ _ _ _ W K OK L) as (W3 & WD & A & A0 & ED & EN & EP & _).
  unfold reprior, measurements. rewrite (ab_odom _ _ A), (ab_priv _ _ A), (ab_shared _ _ A), ED.
  split; [reflexivity|]. split; [exact (ab_act _ _ A)|]. split; [exact (ab_use _ _ A)|]. split; [reflexivity|].
  split.
  - intros j Y. rewrite EP. apply mset_In. apply (wf_priors_sorted _ W).
  - apply (ssorted_NoDup _ Nltb_total). apply (wf_priors_sorted _ W3).
Qed.

Theorem late_old id r d os g i P D g3 X g' v :
  clean id r d os g -> pg_useinact g = false -> handed_ok r d D -> In i (map fst (pg_priors g)) -> late g i P D g3 ->
  qp_f g3 X = Ok (g', v) ->
  v = local_cost g3 X - local_cost g3 (fun _ _ => 0) /\ reprior g i P D g3.
Proof.
  intros C U HD NI L E. destruct (clean_dims _ _ _ _ _ C) as (W & K & <- & <-).
  destruct (late_val _ _ _ _ _ _ _ _ W K HD L E) as (-> & NK & _ & _).
  destruct (late_facts _ _ _ _ _ W K (proj1 HD) L) as (W3 & WD & A & A0 & ED & EN & EP & _).
  split; [|apply (late_reprior _ _ _ _ _ W K (proj1 HD) L)].
  change (fun _ _ : nat => 0) with zeroX. rewrite <- fval_cost by auto. unfold fval.
  rewrite (ab_r _ _ A). change (pg_r (setNeighborPoses g D)) with (pg_r g). apply rsum_ext. intros a _. f_equal. f_equal.
  rewrite (ab_Qform _ _ (X a) (X a) A U).
  - symmetry. apply (ab_Qform _ _ (X a) (X a) A0 U eq_refl).
  - rewrite EP. apply mset_old; [apply (wf_priors_sorted _ W)|exact NI].
Qed.

(** ** Bounded with fresh matrices *)
Lemma cost_nonneg g X : (forall m, In m (measurements g) -> nonneg_meas m) -> 0 <= local_cost g X.
Proof.
  intros NN. unfold local_cost. apply Rmult_le_pos; [lra|]. repeat apply Rplus_le_le_0_compat.
  - apply rsumL_nonneg. intros m Hm. apply edge_nonneg, NN. unfold measurements. rewrite !in_app_iff in *. tauto.
  - apply rsumL_nonneg. intros m Hm. destruct (remote_pose g m); [|lra].
    assert (nonneg_meas m) by (apply NN; unfold measurements; rewrite !in_app_iff; auto).
    destruct (_ =? _)%N; apply edge_nonneg; auto.
  - apply rsumL_nonneg. intros kv _. unfold prior_cost. apply Rplus_le_le_0_compat; apply Rmult_le_pos; try lra; apply rsum_nonneg; intros.
    + apply rsum_nonneg. intros. apply Rle_0_sqr.
    + apply Rle_0_sqr.
Qed.

Theorem fresh_bounded id r d os g : clean id r d os g -> nposes_ok g -> (forall m, In m (measurements g) -> nonneg_meas m) ->
  exists c, forall X g' v, qp_f g X = Ok (g', v) -> c <= v.
Proof.
  intros C HN NN. exists (- local_cost g (fun _ _ => 0)). intros X g' v E.
  rewrite (cost_identity _ _ _ _ _ _ _ _ C HN E). pose proof (cost_nonneg g X NN). lra.
Qed.

(** ** Unbounded with the late prior *)
Lemma unit_orth r : orthonormal r r (fun a b => if Nat.eqb a b then 1 else 0).
Proof.
  intros b c Hb Hc. rewrite (rsum_ext r _ (fun a => if Nat.eqb a b then (if Nat.eqb b c then 1 else 0) else 0)).
  - rewrite rsum_delta by auto. reflexivity.
  - intros a Ha. destruct (Nat.eqb_spec a b); [subst|]; ring.
Qed.

Lemma translated_moved r d n u (X X' : Mx R) : translated r d n u X X' ->
  moved r d n (fun a b => if Nat.eqb a b then 1 else 0) u X X'.
Proof.
  intros (_ & _ & T) a i c Ha Hi Hc. rewrite (T a i c Ha Hi Hc). f_equal.
  rewrite (rsum_ext r _ (fun b => if Nat.eqb b a then X a (i * S d + c)%nat else 0)).
  - rewrite rsum_delta by auto. reflexivity.
  - intros b Hb. rewrite (Nat.eqb_sym a b). destruct (Nat.eqb_spec b a); [subst|]; ring.
Qed.

Definition shift (d : nat) (u : nat -> R) (X : Mx R) : Mx R :=
  mkMx (mrows X) (mcols X) (fun a j => X a j + (if Nat.eqb (j mod S d) d then u a else 0)).
Lemma shift_translated r d n u X : translated r d n u X (shift d u X).
Proof.
  split; [reflexivity|]. split; [reflexivity|]. intros a i c _ _ Hc. cbn [shift mat].
  rewrite Nat.add_comm, Nat.mod_add, Nat.mod_small by lia. reflexivity.
Qed.

Lemma pull_shift r d n i P u X X' : (i < n)%nat -> translated r d n u X X' ->
  prior_pull r d P (pose_blk d X' i) = prior_pull r d P (pose_blk d X i) + 100 * rsum r (fun a => P a d * u a).
Proof.
  intros Hi (_ & _ & T). unfold prior_pull. rewrite Rplus_assoc, <- Rmult_plus_distr_l, <- rsum_add. f_equal; f_equal.
  - apply rsum_ext. intros a Ha. apply rsum_ext. intros c Hc. unfold pose_blk. rewrite (T a i c Ha Hi) by lia.
    destruct (Nat.eqb_spec c d); [lia|ring].
  - apply rsum_ext. intros a Ha. unfold pose_blk. rewrite (T a i d Ha Hi) by lia. rewrite Nat.eqb_refl. ring.
Qed.

Lemma late_unbounded_core g r d i P D g3 X g' v :
  pg_wf g -> cohQ g -> pg_r g = r -> pg_d g = d -> pg_useinact g = false -> handed_ok r d D -> pg_shared g = [] -> pg_priors g = [] ->
  late g i P D g3 -> (exists a, (a < r)%nat /\ P a d <> 0) -> qp_f g3 X = Ok (g', v) ->
  forall c, exists u X' w, translated r d (N.to_nat (pg_n g)) u X X' /\ qp_f g3 X' = Ok (g', w) /\ w < c.
Proof.
  intros W K Er Ed U HD SE PE L (a0 & Ha0 & HP) E c.
  assert (NI : ~ In i (map fst (pg_priors g))) by (rewrite PE; auto).
  set (q := rsum r (fun a => P a d * P a d)).
  assert (Hq : 0 < q).
  { assert (0 <= q) by (apply rsum_nonneg; intros; apply Rle_0_sqr).
    destruct (Req_dec q 0) as [Z|]; [|lra]. exfalso.
    pose proof (rsum_nonneg_zero r (fun a => P a d * P a d) ltac:(intros; apply Rle_0_sqr) Z a0 Ha0) as Z0. cbn beta in Z0. nra. }
  set (t := (Rabs (v - c) + 1) / (100 * q)).
  set (u := fun a => t * P a d).
  assert (T : translated r d (N.to_nat (pg_n g)) u X (shift d u X)) by apply shift_translated.
  assert (EW : exists w, qp_f g3 (shift d u X) = Ok (g', w)).
  { unfold qp_f in E |- *. apply check_Ok in E. destruct E as [H1 E]. apply check_Ok in E. destruct E as [H2 E].
    unfold check. cbn [shift mrows mcols]. rewrite H1, H2.
    apply bind_Ok in E. destruct E as ([[g1 Q1] G] & EQ & E). rewrite EQ. cbn [bind].
    apply require_Ok in E. destruct E as [HR E]. injection E as <- _.
    assert (HS : can_mul (shift d u X) Q1 && same_size (mmul (shift d u X) Q1) (shift d u X) && same_size (shift d u X) G = true)
      by exact HR.
    unfold require. rewrite HS. eauto. }
  destruct EW as (w & EW). exists u, (shift d u X), w. split; [exact T|]. split; [exact EW|].
  assert (HD' : handed_ok (pg_r g) (pg_d g) D) by (rewrite Er, Ed; exact HD).
  pose proof (late_new_core _ _ _ _ _ _ _ _ W K U HD' NI L E) as V.
  pose proof (late_new_core _ _ _ _ _ _ _ _ W K U HD' NI L EW) as V'. rewrite Er, Ed in V, V'.
  destruct (late_facts _ _ _ _ _ W K (proj1 HD) L) as (_ & WD & _ & _ & _ & _ & _ & Hi & _).
  assert (PC : local_cost (setNeighborPoses g D) (shift d u X) = local_cost (setNeighborPoses g D) X).
  { unfold local_cost, shared_cost, priors_cost. cbn [setNeighborPoses pg_shared pg_priors set_pg_G set_pg_nposes].
    rewrite SE, PE, !rsumL_nil. f_equal. f_equal. f_equal.
    apply (private_cost_moved (setNeighborPoses g D) _ u _ _ WD (unit_orth _)).
    change (moved (pg_r g) (pg_d g) (N.to_nat (pg_n g)) (fun a b => if Nat.eqb a b then 1 else 0) u X (shift d u X)).
    rewrite Er, Ed. apply translated_moved. exact T. }
  rewrite PC, (pull_shift r d (N.to_nat (pg_n g)) (N.to_nat i) P u X _ ltac:(lia) T) in V'.
  assert (EU : rsum r (fun a => P a d * u a) = t * q).
  { unfold q. rewrite <- rsum_scal. apply rsum_ext. intros. unfold u. ring. }
  rewrite EU in V'. assert (ET : 100 * (t * q) = Rabs (v - c) + 1) by (unfold t; field; lra).
  pose proof (Rle_abs (v - c)). lra.
Qed.

Theorem late_unbounded id r d os g i P D g3 X g' v :
  clean id r d os g -> pg_useinact g = false -> handed_ok r d D -> pg_shared g = [] -> pg_priors g = [] ->
  late g i P D g3 -> (exists a, (a < r)%nat /\ P a d <> 0) -> qp_f g3 X = Ok (g', v) ->
  forall c, exists u X' w, translated r d (N.to_nat (pg_n g)) u X X' /\ qp_f g3 X' = Ok (g', w) /\ w < c.
Proof.
  intros C U HD SE PE L HP E. destruct (clean_dims _ _ _ _ _ C) as (W & K & Er & Ed).
  exact (late_unbounded_core g r d i P D g3 X g' v W K Er Ed U HD SE PE L HP E).
Qed.

(** ** Examples *)
(** Three private edges; the second pose is anchored after the matrices were
    built, at a place off the origin. *)
Definition lateR (i : N) : PoseGraph R -> bool := fun g =>
  match constructDataMatrices g with
  | Ok (g1, true) => match setPrior g1 i (exR_pose 3 1) with
                     | Ok g2 => okf (exR_X 3 3) (setNeighborPoses g2 (exR_nbr 3))
                     | _ => false end
  | _ => false end.

Lemma lateR_spec i g : lateR i g = true ->
  exists g3 g' v, late g i (exR_pose 3 1) (exR_nbr 3) g3 /\ qp_f g3 (exR_X 3 3) = Ok (g', v).
Proof.
  unfold lateR. destruct (constructDataMatrices g) as [[g1 b]| |] eqn:E1; try discriminate. destruct b; try discriminate.
  destruct (setPrior g1 i (exR_pose 3 1)) as [g2| |] eqn:E2; try discriminate. unfold okf.
  destruct (qp_f _ _) as [[g' v]| |] eqn:E; try discriminate. intros _.
  exists (setNeighborPoses g2 (exR_nbr 3)), g', v. split; [exists g1, g2; auto|exact E].
Qed.

Lemma nbr_handed : handed_ok 3 2 (exR_nbr 3).
Proof.
  split; [cbn; repeat constructor|]. intros p Z [E|[E|[]]]; injection E as _ <-; split; reflexivity.
Qed.

Lemma late_new_ex : exists g g3 g' v, clean 0 3 2 exR_ops g /\ pg_useinact g = false /\ handed_ok 3 2 (exR_nbr 3) /\
  length (pg_shared g) = 2%nat /\ map fst (pg_priors g) = [1%N] /\ ~ In 2%N (map fst (pg_priors g)) /\
  late g 2 (exR_pose 3 1) (exR_nbr 3) g3 /\ qp_f g3 (exR_X 3 3) = Ok (g', v).
Proof.
  by_clean 0%N 3%nat 2%nat exR_ops (fun g => lateR 2 g && negb (pg_useinact g) && Nat.eqb (length (pg_shared g)) 2 &&
    match map fst (pg_priors g) with [1%N] => true | _ => false end).
  rewrite !andb_true_iff, !Nat.eqb_eq, negb_true_iff in T. destruct T as (((T1 & T2) & T3) & T4).
  assert (EP : map fst (pg_priors g) = [1%N]).
  { destruct (map fst (pg_priors g)) as [|[|[| |]] []]; try discriminate. reflexivity. }
  destruct (lateR_spec _ _ T1) as (g3 & g' & v & L & E).
  exists g, g3, g', v. rewrite EP. repeat (split; [auto; apply nbr_handed|]).
  split; [intros [Q|[]]; discriminate|]. auto.
Qed.

Lemma late_old_ex : exists g g3 g' v, clean 0 3 2 exR_ops g /\ pg_useinact g = false /\ handed_ok 3 2 (exR_nbr 3) /\
  In 1%N (map fst (pg_priors g)) /\ late g 1 (exR_pose 3 1) (exR_nbr 3) g3 /\ qp_f g3 (exR_X 3 3) = Ok (g', v).
Proof.
  by_clean 0%N 3%nat 2%nat exR_ops (fun g => lateR 1 g && negb (pg_useinact g) &&
    existsb (N.eqb 1) (map fst (pg_priors g))).
  rewrite !andb_true_iff, negb_true_iff in T. destruct T as ((T1 & T2) & T3).
  apply existsb_exists in T3. destruct T3 as (k & T3 & Ek). apply N.eqb_eq in Ek. subst k.
  destruct (lateR_spec _ _ T1) as (g3 & g' & v & L & E).
  exists g, g3, g', v. repeat (split; [auto; apply nbr_handed|]). auto.
Qed.

Lemma late_unbounded_ex : exists g g3 g' v, clean 0 3 2 (map PAdd exR_priv) g /\ pg_useinact g = false /\
  handed_ok 3 2 (exR_nbr 3) /\ pg_shared g = [] /\ pg_priors g = [] /\
  late g 1 (exR_pose 3 1) (exR_nbr 3) g3 /\ (exists a, (a < 3)%nat /\ exR_pose 3 1 a 2%nat <> 0) /\
  qp_f g3 (exR_X 3 3) = Ok (g', v) /\ length (pg_odom g ++ pg_priv g) = 3%nat.
Proof.
  by_clean 0%N 3%nat 2%nat (map PAdd exR_priv) (fun g => lateR 1 g && negb (pg_useinact g) &&
    Nat.eqb (length (pg_shared g)) 0 && Nat.eqb (length (pg_priors g)) 0 && Nat.eqb (length (pg_odom g ++ pg_priv g)) 3).
  rewrite !andb_true_iff, !Nat.eqb_eq, negb_true_iff in T. destruct T as ((((T1 & T2) & T3) & T4) & T5).
  destruct (lateR_spec _ _ T1) as (g3 & g' & v & L & E).
  exists g, g3, g', v. split; [auto|]. split; [auto|]. split; [apply nbr_handed|].
  split; [apply length_zero_iff_nil; auto|]. split; [apply length_zero_iff_nil; auto|]. split; [auto|].
  split; [exists 0%nat; split; [lia|cbn; lra]|]. auto.
Qed.

Lemma fresh_bounded_ex : exists g g' v, clean 0 3 2 exR_ops g /\ nposes_ok g /\
  (forall m, In m (measurements g) -> nonneg_meas m) /\ qp_f g (exR_X 3 3) = Ok (g', v).
Proof.
  destruct exR_cost as (g & g' & v & C & HN & E & _).
  destruct exR_psd as (g2 & _ & _ & C2 & NN & _).
  assert (g2 = g); [|subst; exists g, g', v; auto].
  destruct C as (g0 & N0 & _ & _ & R0). destruct C2 as (g02 & N02 & _ & _ & R02). congruence.
Qed.
