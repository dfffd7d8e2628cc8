(** Changes of frame (C29-C31). *)
From Coq Require Import List NArith ZArith Bool Arith Lia Reals Lra.
From Verif Require Import Base SMap Num RSum Det ModelTypes ModelPoseGraph ModelProblem ModelRobust ModelPoses ModelSolver ModelAgent
  SpecCost SpecSolver SpecAgent SpecFrames MatR ProofsPoseGraph ProofsSolver ProofsPoses ProofsOdom.
Import ListNotations.
Local Open Scope R_scope.

(** ** Laws of blocks *)
Section L.
Variable d : nat.
Local Notation blk := (nat -> nat -> R).
Implicit Types A B C : blk.

Lemma beq_refl A : beq d A A. Proof. intros i j _ _. reflexivity. Qed.
Lemma beq_sym A B : beq d A B -> beq d B A. Proof. intros E i j Hi Hj. symmetry. auto. Qed.
Lemma beq_trans A B C : beq d A B -> beq d B C -> beq d A C.
Proof. intros E F i j Hi Hj. rewrite E by auto. auto. Qed.
Lemma comp_ext A B A' B' : beq d A A' -> beq d B B' -> beq d (comp d A B) (comp d A' B').
Proof.
  intros E F i j Hi Hj. unfold comp. f_equal.
  - apply rsum_ext. intros k Hk. rewrite E, F by lia. reflexivity.
  - destruct (Nat.eqb j d); auto. apply E; lia.
Qed.
Lemma comp_assoc A B C : beq d (comp d (comp d A B) C) (comp d A (comp d B C)).
Proof.
  intros i j Hi Hj.
  transitivity (rsum d (fun k => rsum d (fun l => A i l * B l k) * C k j) + (if Nat.eqb j d then rsum d (fun k => A i k * B k d) + A i d else 0)).
  { unfold comp. rewrite Nat.eqb_refl. f_equal. apply rsum_ext. intros k Hk. rewrite (proj2 (Nat.eqb_neq k d)) by lia. rewrite Rplus_0_r. reflexivity. }
  transitivity (rsum d (fun k => A i k * rsum d (fun l => B k l * C l j) + (if Nat.eqb j d then A i k * B k d else 0)) + (if Nat.eqb j d then A i d else 0)).
  2: { unfold comp. f_equal. apply rsum_ext. intros k Hk. destruct (Nat.eqb j d); ring. }
  rewrite rsum_add. pose proof (mul_assoc d d A B C i j) as M. unfold mul in M. rewrite M.
  destruct (Nat.eqb j d); [ring|]. rewrite rsum_zero. ring.
Qed.
Lemma comp_unit_r A : beq d (comp d A unit_block) A.
Proof.
  intros i j Hi Hj. unfold comp, unit_block. destruct (Nat.eqb_spec j d) as [->|Nj].
  - rewrite rsum_zero'; [ring|]. intros k Hk. rewrite (proj2 (Nat.eqb_neq k d)) by lia. ring.
  - rewrite (rsum_ext d _ (fun k => if Nat.eqb k j then A i k else 0)); [|intros k Hk; destruct (Nat.eqb k j); ring].
    rewrite rsum_delta by lia. ring.
Qed.
Lemma comp_unit_l A : beq d (comp d unit_block A) A.
Proof.
  intros i j Hi Hj. unfold comp, unit_block. rewrite (proj2 (Nat.eqb_neq i d)) by lia.
  rewrite (rsum_ext d _ (fun k => if Nat.eqb i k then A k j else 0)); [|intros k Hk; destruct (Nat.eqb i k); ring].
  rewrite rsum_delta' by lia. destruct (Nat.eqb j d); ring.
Qed.
Lemma pinv_l A : orthonormal d d A -> beq d (comp d (pinv d A) A) unit_block.
Proof.
  intros H i j Hi Hj. unfold comp, pinv, unit_block. rewrite Nat.eqb_refl.
  rewrite (rsum_ext d _ (fun k => A k i * A k j)); [|intros k Hk; rewrite (proj2 (Nat.eqb_neq k d)) by lia; reflexivity].
  destruct (Nat.eqb_spec j d) as [->|Nj].
  - rewrite (proj2 (Nat.eqb_neq i d)) by lia. ring.
  - rewrite (H i j) by lia. ring.
Qed.
Lemma comp_cancel A B C : orthonormal d d A -> beq d (comp d A B) (comp d A C) -> beq d B C.
Proof.
  intros H E. apply beq_trans with (comp d unit_block B); [apply beq_sym, comp_unit_l|].
  apply beq_trans with (comp d (comp d (pinv d A) A) B); [apply comp_ext; [apply beq_sym, pinv_l; auto|apply beq_refl]|].
  apply beq_trans with (comp d (pinv d A) (comp d A B)); [apply comp_assoc|].
  apply beq_trans with (comp d (pinv d A) (comp d A C)); [apply comp_ext; [apply beq_refl|auto]|].
  apply beq_trans with (comp d (comp d (pinv d A) A) C); [apply beq_sym, comp_assoc|].
  apply beq_trans with (comp d unit_block C); [apply comp_ext; [apply pinv_l; auto|apply beq_refl]|apply comp_unit_l].
Qed.
Lemma pinv_orth A : orthonormal d d A -> orthonormal d d (pinv d A).
Proof.
  intros H. apply (orth_ext d d (tr A)); [|apply orth_square; auto].
  intros i j Hi Hj. unfold pinv, tr. rewrite (proj2 (Nat.eqb_neq j d)) by lia. reflexivity.
Qed.
Lemma pinv_r A : orthonormal d d A -> beq d (comp d A (pinv d A)) unit_block.
Proof.
  intros H. apply (comp_cancel (pinv d A)); [apply pinv_orth; auto|].
  apply beq_trans with (comp d (comp d (pinv d A) A) (pinv d A)); [apply beq_sym, comp_assoc|].
  apply beq_trans with (comp d unit_block (pinv d A)); [apply comp_ext; [apply pinv_l; auto|apply beq_refl]|].
  apply beq_trans with (pinv d A); [apply comp_unit_l|apply beq_sym, comp_unit_r].
Qed.
Lemma comp_orth A B : orthonormal d d A -> orthonormal d d B -> orthonormal d d (comp d A B).
Proof.
  intros H K. apply (orth_ext d d (mul d A B)); [|apply (orth_prod d d d); auto].
  intros i j Hi Hj. unfold comp, mul. rewrite (proj2 (Nat.eqb_neq j d)) by lia. ring.
Qed.
Lemma comp_det A B : det d (comp d A B) = det d A * det d B.
Proof.
  rewrite <- det_mul. apply det_ext. intros i j Hi Hj. unfold comp, mul. rewrite (proj2 (Nat.eqb_neq j d)) by lia. ring.
Qed.
Lemma pinv_det A : det d (pinv d A) = det d A.
Proof.
  rewrite <- (det_tr d A). apply det_ext. intros i j Hi Hj. unfold pinv, tr. rewrite (proj2 (Nat.eqb_neq j d)) by lia. reflexivity.
Qed.
Lemma comp_rot A B : rot_block d A -> rot_block d B -> rot_block d (comp d A B).
Proof. intros [O1 D1] [O2 D2]. split; [apply comp_orth; auto|]. rewrite comp_det, D1, D2. ring. Qed.
Lemma pinv_rot A : rot_block d A -> rot_block d (pinv d A).
Proof. intros [O1 D1]. split; [apply pinv_orth; auto|]. rewrite pinv_det. auto. Qed.
Lemma rot_ext A B : beq d A B -> rot_block d A -> rot_block d B.
Proof.
  intros E [O1 D1]. split; [apply (orth_ext d d A); auto; intros; apply E; lia|].
  rewrite <- D1. apply det_ext. intros i j Hi Hj. symmetry. apply E; lia.
Qed.
Lemma pinv_ext A B : beq d A B -> beq d (pinv d A) (pinv d B).
Proof.
  intros E i j Hi Hj. unfold pinv. destruct (Nat.eqb_spec j d).
  - f_equal. apply rsum_ext. intros k Hk. rewrite !E by lia. reflexivity.
  - apply E; lia.
Qed.
Lemma rel_ext A B A' B' : beq d A A' -> beq d B B' -> beq d (rel d A B) (rel d A' B').
Proof. intros E F. apply comp_ext; [apply pinv_ext|]; auto. Qed.
(** Moving both poses does not change the one seen from the other. *)
Lemma rel_move W A B : orthonormal d d W -> orthonormal d d A -> beq d (rel d (comp d W A) (comp d W B)) (rel d A B).
Proof.
  intros HW HA. apply (comp_cancel (comp d W A)); [apply comp_orth; auto|].
  apply beq_trans with (comp d W B).
  { apply beq_trans with (comp d (comp d (comp d W A) (pinv d (comp d W A))) (comp d W B)); [apply beq_sym, comp_assoc|].
    apply beq_trans with (comp d unit_block (comp d W B)); [|apply comp_unit_l].
    apply comp_ext; [apply pinv_r, comp_orth; auto|apply beq_refl]. }
  apply beq_sym. apply beq_trans with (comp d W (comp d A (rel d A B))); [apply comp_assoc|].
  apply comp_ext; [apply beq_refl|].
  apply beq_trans with (comp d (comp d A (pinv d A)) B); [apply beq_sym, comp_assoc|].
  apply beq_trans with (comp d unit_block B); [apply comp_ext; [apply pinv_r; auto|apply beq_refl]|apply comp_unit_l].
Qed.
(** A measurement as a block; [link] is composition with it. *)
Definition mblk (m : Meas R) (i j : nat) : R := if Nat.eqb j d then mt m i O else mR m i j.
Lemma link_comp m A B : link d m A B <-> beq d B (comp d A (mblk m)).
Proof.
  split.
  - intros L i j Hi Hj. destruct (L i Hi) as [L1 L2]. unfold comp, mblk. destruct (Nat.eqb_spec j d) as [->|Nj].
    + rewrite L2. apply Rplus_comm.
    + rewrite L1 by lia. ring.
  - intros E a Ha. split.
    + intros c Hc. rewrite E by lia. unfold comp, mblk. rewrite (proj2 (Nat.eqb_neq c d)) by lia. ring.
    + rewrite E by lia. unfold comp, mblk. rewrite Nat.eqb_refl. apply Rplus_comm.
Qed.
End L.

(** ** The pose operations on blocks *)
Lemma blk_mul d p q : wf1 d p -> wf1 d q -> exists s, pose_mul p q = Ok s /\ wf1 d s /\ beq d (pa_X s) (comp d (pa_X p) (pa_X q)).
Proof. intros Hp Hq. destruct (pose_mul_spec d p q Hp Hq) as (s & E & W & V). exists s. split; auto. Qed.
Lemma blk_inv minv d p : wf1 d p -> rot_block d (pa_X p) -> inverse_ok minv d ->
  exists s, pose_inverse minv p = Ok s /\ wf1 d s /\ beq d (pa_X s) (pinv d (pa_X p)).
Proof.
  intros W [O D] Hm. assert (Rg : rigid d p). { destruct W as (A & B & C & E & F). repeat (split; auto). }
  destruct (inverse_entries minv d p W O (Hm p Rg)) as (s & E & Ws & V). exists s. split; auto.
Qed.
Lemma wf1_rigid d p : wf1 d p -> rot_block d (pa_X p) -> rigid d p.
Proof. intros (A & B & C & E & F) [O D]. repeat (split; auto). Qed.
Lemma blk_id d : exists e : PoseArr R, pose_identity d = Ok e /\ wf1 d e /\ beq d (pa_X e) unit_block.
Proof. destruct (pose_identity_spec d) as (e & E & W & V). exists e. split; auto. Qed.

Lemma traj_pose d n T i : traj d n T -> (i < n)%nat -> exists P, pa_pose T i = Ok P /\ sized d (d + 1) P /\
  forall a c, P a c = pblk T i a c.
Proof.
  intros (R1 & D1 & N1 & M1 & C1) Hi. unfold pa_pose. rewrite N1, (proj2 (Nat.ltb_lt _ _) Hi). cbn [check]. rewrite R1, D1.
  eexists. split; [reflexivity|]. split; [split; reflexivity|]. intros a c. unfold pblk. cbn [Num.mat mblock]. rewrite D1, Nat.add_0_l. reflexivity.
Qed.
Lemma mx_pose d (P : Mx R) : sized d (d + 1) P -> pose_of_mx P = Ok (mkPA d d 1 P) /\ wf1 d (mkPA d d 1 P).
Proof. intros [H1 H2]. split; [apply pose_of_mx_spec; auto|]. unfold wf1. cbn. auto. Qed.

(** ** to_first_frame, transform_all *)
Lemma transform_all_spec d n TW T : wf1 d TW -> traj d n T ->
  exists T', transform_all TW n T = Ok T' /\ traj d n T' /\
    forall i, (i < n)%nat -> beq d (pblk T' i) (comp d (pa_X TW) (pblk T i)).
Proof.
  intros HW HT. unfold transform_all.
  set (f := fun (T : PoseArr R) i => _). 
  assert (G : forall k, (k <= n)%nat -> exists T', foldM f T (seq 0 k) = Ok T' /\ (traj d n T' /\
     (forall i, (i < k)%nat -> beq d (pblk T' i) (comp d (pa_X TW) (pblk T i))) /\
     (forall i, (k <= i)%nat -> beq d (pblk T' i) (pblk T i)))).
  { apply (foldM_seq_inv (fun k T' => traj d n T' /\ _ /\ _)).
    - split; [exact HT|]. split; [intros i Hi; lia|]. intros i _. apply beq_refl.
    - intros k T1 Hk (H1 & H2 & H3). destruct (traj_pose d n T1 k H1 Hk) as (P & EP & SP & VP).
      destruct (mx_pose d P SP) as [EQ WQ]. destruct (blk_mul d TW (mkPA d d 1 P) HW WQ) as (s & Es & Ws & Vs).
      unfold f. rewrite EP. cbn [bind]. rewrite EQ. cbn [bind]. rewrite Es. cbn [bind].
      destruct (set_pose_entry d n T1 k (pa_X s) H1 Hk) as (T2 & E2 & H4 & H5 & H6); [split; apply Ws|].
      exists T2. split; [exact E2|]. split; auto. split.
      + intros i Hi a c Ha Hc. destruct (Nat.eq_dec i k) as [->|Ni].
        * rewrite H5 by auto. rewrite Vs by auto. apply comp_ext; auto; [apply beq_refl|]. intros a' c' Ha' Hc'. cbn [pa_X]. rewrite VP. apply H3; auto.
        * rewrite H6 by auto. apply H2; auto. lia.
      + intros i Hi a c Ha Hc. rewrite H6 by lia. apply H3; auto. lia. }
  destruct (G n (Nat.le_refl n)) as (T' & E & H1 & H2 & _). exists T'. auto.
Qed.

Lemma pa_new_traj d n : exists T : PoseArr R, pa_new d d n = Ok T /\ traj d n T.
Proof. destruct (pa_new_spec (S := R) d d n (Nat.le_refl d)) as (a & E & B). exists a. split; auto. unfold blank in B. unfold traj. tauto. Qed.

Lemma to_first_frame_spec (x : Ext R) d n T : inverse_ok (x_minv x) d -> (0 < n)%nat -> (n <= pa_n T)%nat ->
  traj d (pa_n T) T -> rot_block d (pblk T 0) ->
  exists T', to_first_frame x d n T = Ok T' /\ traj d n T' /\
    forall i, (i < n)%nat -> beq d (pblk T' i) (rel d (pblk T 0) (pblk T i)).
Proof.
  intros Hm Hn Hl HT H0. unfold to_first_frame. destruct (pa_new_traj d n) as (N0 & EN & TN). rewrite EN. cbn [bind].
  destruct (traj_pose d _ T 0 HT ltac:(lia)) as (P0 & EP & SP & VP). rewrite EP. cbn [bind].
  destruct (mx_pose d P0 SP) as [EQ WQ]. rewrite EQ. cbn [bind].
  assert (B0 : beq d (pblk T 0) P0) by (intros a c _ _; rewrite VP; reflexivity).
  assert (Rb : rot_block d P0) by (apply (rot_ext d (pblk T 0)); auto).
  destruct (blk_inv (x_minv x) d (mkPA d d 1 P0) WQ Rb Hm) as (s & Es & Ws & Vs).
  set (f := fun (T' : PoseArr R) i => _).
  assert (G : forall k, (k <= n)%nat -> exists T', foldM f N0 (seq 0 k) = Ok T' /\ (traj d n T' /\
     (forall i, (i < k)%nat -> beq d (pblk T' i) (rel d (pblk T 0) (pblk T i))))).
  { apply (foldM_seq_inv (fun k T' => traj d n T' /\ _)).
    - split; [exact TN|]. intros i Hi; lia.
    - intros k T1 Hk (H1 & H2). destruct (traj_pose d _ T k HT ltac:(lia)) as (P & EPk & SPk & VPk).
      destruct (mx_pose d P SPk) as [EQk WQk]. destruct (blk_mul d s (mkPA d d 1 P) Ws WQk) as (u & Eu & Wu & Vu).
      unfold f. rewrite EPk. cbn [bind]. rewrite EQk. cbn [bind]. rewrite Es. cbn [bind]. rewrite Eu. cbn [bind].
      destruct (set_pose_entry d n T1 k (pa_X u) H1 Hk) as (T2 & E2 & H4 & H5 & H6); [split; apply Wu|].
      exists T2. split; [exact E2|]. split; auto. intros i Hi a c Ha Hc. destruct (Nat.eq_dec i k) as [->|Ni].
      + rewrite H5 by auto. rewrite Vu by auto. apply comp_ext; auto.
        * apply (beq_trans d _ (pinv d P0)); [exact Vs|]. apply pinv_ext, beq_sym. exact B0.
        * intros a' c' Ha' Hc'. cbn [pa_X]. apply VPk.
      + rewrite H6 by auto. apply H2; auto. lia. }
  destruct (G n (Nat.le_refl n)) as (T' & E & H1 & H2). exists T'. auto.
Qed.
