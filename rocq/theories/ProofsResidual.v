(** The residual behind a robust weight (C25). *)
From Coq Require Import List NArith ZArith Bool Arith Lia Reals Lra.
From Verif Require Import Base SMap Num RSum Det ModelTypes ModelPoseGraph ModelProblem ModelRobust ModelPoses ModelSolver ModelAgent
  SpecPoseGraph SpecCost SpecSolver SpecAgent SpecFrames MatR ProofsPoseGraph ProofsCost4 ProofsSolver ProofsPoses ProofsOdom ProofsFrames
  ProofsAgent ProofsAgent2 ProofsAgent3 ProofsAgent4 ProofsFrames2.
Import ListNotations.
Local Open Scope R_scope.
Local Open Scope res_scope.

Lemma error_is m (R1 t1 R2 t2 : Mx R) r d (P1 P2 : nat -> nat -> R) :
  sized d d (mR m) -> sized d 1 (mt m) -> sized r d R1 -> sized r 1 t1 -> sized r d R2 -> sized r 1 t2 ->
  (forall k j, (k < r)%nat -> (j < d)%nat -> R1 k j = P1 k j) -> (forall k, (k < r)%nat -> t1 k 0%nat = P1 k d) ->
  (forall k j, (k < r)%nat -> (j < d)%nat -> R2 k j = P2 k j) -> (forall k, (k < r)%nat -> t2 k 0%nat = P2 k d) ->
  computeMeasurementError m R1 t1 R2 t2 = Ok (edge_cost r d (set_mweight 1 m) P1 P2).
Proof.
  intros [M1 M2] [M3 M4] [A1 A2] [A3 A4] [B1 B2] [B3 B4] V1 V2 V3 V4.
  assert (exists v, computeMeasurementError m R1 t1 R2 t2 = Ok v) as (v & E).
  { unfold computeMeasurementError, require, can_mul, same_size. cbn [mmul mrows mcols].
    rewrite M1, M2, M3, M4, A1, A2, A3, A4, B1, B2, B3, B4, !Nat.eqb_refl. cbn. eauto. }
  rewrite E. f_equal. rewrite (meas_error_value m R1 t1 R2 t2 r d v A1 A2 A3 A4 M2 E).
  unfold edge_cost. cbn [set_mweight mweight mkappa mtau mR mt]. rewrite Rmult_1_l. f_equal; f_equal; apply rsum_ext; intros a Ha.
  - apply rsum_ext. intros c Hc. rewrite V3 by auto. f_equal. f_equal. apply rsum_ext. intros b Hb. rewrite V1 by auto. reflexivity.
  - rewrite V2, V4 by auto. f_equal. f_equal. apply rsum_ext. intros b Hb. rewrite V1 by auto. reflexivity.
Qed.

Theorem residual_value : forall x id p os (a : Agent R) m, areach x id p os a -> a_state a = INITIALIZED ->
  In m (measurements (a_pg a)) ->
  ag_residual a m = Ok match known_pose a (mkPoseID (mr1 m) (mp1 m)), known_pose a (mkPoseID (mr2 m) (mp2 m)) with
                       | Some P1, Some P2 => Some (sqrt (edge_cost (p_r p) (p_d p) (set_mweight 1 m) P1 P2))
                       | _, _ => None
                       end.
Proof.
  intros x id p os a m Ra Hs Hin. pose proof (areach_inv _ _ _ _ _ Ra) as I. destruct (hist_all _ _ _ _ _ Ra) as (Hid & Hp & _).
  destruct (iv_X _ I ltac:(congruence)) as [_ AX]. rewrite Hp in AX. set (r := p_r p) in *. set (d := p_d p) in *.
  destruct (wf_ids _ (iv_pg _ I) _ Hin) as (I1 & I2 & I3 & I4).
  pose proof (wf_dims _ (iv_pg _ I) _ Hin) as D. unfold dims_ok in D. rewrite !andb_true_iff, !Nat.eqb_eq, (iv_d _ I), Hp in D. fold d in D.
  assert (S1 : sized d d (mR m)) by (split; tauto). assert (S2 : sized d 1 (mt m)) by (split; tauto).
  assert (Own : forall q, In q (own_poses (a_id a) m) -> (N.to_nat q < num_poses a)%nat).
  { intros q Hq. unfold num_poses. pose proof (proj1 (wf_n _ (iv_pg _ I)) m q Hin) as W. rewrite (iv_id _ I) in W. specialize (W Hq). lia. }
  assert (Nb : forall q v, mfind pose_ltb q (a_ndict a) = Some v -> sized r (d + 1) v).
  { intros q v Hq. pose proof (proj2 (iv_nd _ I) q v Hq) as H. rewrite Hp in H. unfold sized. tauto. }
  assert (LP : forall v, sized r (d + 1) v -> sized r d (lp_rot v) /\ sized r 1 (lp_trans v) /\
     (forall k j, (k < r)%nat -> (j < d)%nat -> lp_rot v k j = v k j) /\ (forall k, (k < r)%nat -> lp_trans v k 0%nat = v k d)).
  { intros v [W1 W2]. unfold lp_rot, lp_trans, sized. cbn [mblock mrows mcols Num.mat]. rewrite W1, W2.
    repeat split; try lia; intros; f_equal; lia. }
  assert (OP : forall q, In q (own_poses (a_id a) m) -> (q < 4294967295)%N -> exists Ri ti,
     (do R <- pa_rot (a_X a) (N.to_nat (u32 q)); do t <- pa_trans (a_X a) (N.to_nat (u32 q)); Ok (R, t)) = Ok (Ri, ti) /\
     sized r d Ri /\ sized r 1 ti /\ (forall k j, (k < r)%nat -> (j < d)%nat -> Ri k j = pblk (a_X a) (N.to_nat q) k j) /\
     (forall k, (k < r)%nat -> ti k 0%nat = pblk (a_X a) (N.to_nat q) k d)).
  { intros q Hq L. destruct (arr_parts r d _ _ (N.to_nat q) AX (Own q Hq)) as (Ri & ti & ER & Et & SR & St & VR & Vt).
    exists Ri, ti. rewrite u32_small by lia. rewrite ER. cbn [bind]. rewrite Et. cbn [bind]. auto 10. }
  assert (Rel : mr1 m = a_id a \/ mr2 m = a_id a).
  { unfold measurements in Hin. rewrite !in_app_iff in Hin. rewrite <- (iv_id _ I).
    destruct Hin as [H|[H|H]]; [apply (wf_odom _ (iv_pg _ I)) in H; unfold is_odom in H
      |apply (wf_priv _ (iv_pg _ I)) in H; unfold is_priv in H|apply (wf_shared _ (iv_pg _ I)) in H; unfold is_shared in H];
      destruct (N.eqb_spec (mr1 m) (pg_id (a_pg a))), (N.eqb_spec (mr2 m) (pg_id (a_pg a))); cbn in H; try discriminate; auto. }
  unfold ag_residual, is_init. rewrite Hs. cbn [state_eqb negb]. unfold known_pose. cbn [robot_id frame_id].
  unfold own_poses in OP, Own.
  destruct (N.eqb_spec (mr1 m) (a_id a)) as [E1|E1].
  - destruct (N.eqb_spec (mr2 m) (a_id a)) as [E2|E2].
    + rewrite (proj2 (N.eqb_eq (mr1 m) (mr2 m))) by congruence.
      destruct (OP (mp1 m) ltac:(cbn; auto) ltac:(lia)) as (R1 & t1 & Q1 & Q2 & Q3 & Q4 & Q5).
      destruct (OP (mp2 m) ltac:(cbn; auto) ltac:(lia)) as (R2 & t2 & Q1' & Q2' & Q3' & Q4' & Q5').
      rewrite Q1. cbn [bind]. rewrite Q1'. cbn [bind].
      rewrite (error_is m R1 t1 R2 t2 r d (pblk (a_X a) (N.to_nat (mp1 m))) (pblk (a_X a) (N.to_nat (mp2 m)))) by auto. reflexivity.
    + rewrite (proj2 (N.eqb_neq (mr1 m) (mr2 m))) by congruence.
      destruct (OP (mp1 m) ltac:(cbn; auto) ltac:(lia)) as (R1 & t1 & Q1 & Q2 & Q3 & Q4 & Q5).
      rewrite Q1. cbn [bind]. unfold pose_of. rewrite !u32_small by lia.
      destruct (mfind pose_ltb _ (a_ndict a)) as [v|] eqn:Ev; [|reflexivity].
      destruct (LP v (Nb _ _ Ev)) as (L1 & L2 & L3 & L4).
      rewrite (error_is m R1 t1 (lp_rot v) (lp_trans v) r d (pblk (a_X a) (N.to_nat (mp1 m))) v) by auto. reflexivity.
  - destruct Rel as [?|E2]; [contradiction|]. rewrite (proj2 (N.eqb_neq (mr1 m) (mr2 m))) by congruence.
    rewrite (proj2 (N.eqb_eq (mr2 m) (a_id a)) E2) in OP |- *.
    destruct (OP (mp2 m) ltac:(cbn; auto) ltac:(lia)) as (R2 & t2 & Q1 & Q2 & Q3 & Q4 & Q5).
    rewrite Q1. cbn [bind]. unfold pose_of. rewrite !u32_small by lia.
    destruct (mfind pose_ltb _ (a_ndict a)) as [v|] eqn:Ev; [|reflexivity].
    destruct (LP v (Nb _ _ Ev)) as (L1 & L2 & L3 & L4).
    rewrite (error_is m (lp_rot v) (lp_trans v) R2 t2 r d v (pblk (a_X a) (N.to_nat (mp2 m)))) by auto. reflexivity.
Qed.
