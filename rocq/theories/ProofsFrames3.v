(** Export of the estimate (C31). *)
From Coq Require Import List NArith ZArith Bool Arith Lia Reals Lra.
From Verif Require Import Base SMap Num RSum Det ModelTypes ModelPoseGraph ModelProblem ModelRobust ModelPoses ModelSolver ModelAgent
  SpecPoseGraph SpecCost SpecSolver SpecAgent SpecFrames MatR ProofsPoseGraph ProofsSolver ProofsPoses ProofsOdom ProofsFrames ProofsFrames2
  ProofsAgent ProofsAgent2 ProofsAgent3 ProofsAgent4.
Import ListNotations.
Local Open Scope R_scope.

Section P.
Variables (x : Ext R) (d : nat).
Hypothesis Hdet : det_ok (x_det x) d.

Lemma round_ok (M : Mx R) B : sized d d M -> (forall i j, (i < d)%nat -> (j < d)%nat -> M i j = B i j) ->
  svd_at (x_svd_full x) d d M ->
  let Q := projectToRotationGroup (x_svd_full x) (x_det x) M in sized d d Q /\ rounds d B Q.
Proof.
  intros SM E Hs. cbv zeta.
  assert (Hd : forall A, mrows A = d -> mcols A = d -> x_det x A = det d A) by (intros A H1 H2; apply Hdet; split; auto).
  pose proof (rotation_projection (x_svd_full x) (x_det x) d M) as P. destruct (P M Hs Hd) as [(R1 & R2 & R3 & R4) _].
  split; [split; auto|]. split; [split; auto|]. intros Q' HQ'. destruct (P Q' Hs Hd) as [_ Hle].
  rewrite <- !(dist2_ext d d M B _ _ E (fun i j _ _ => eq_refl)). auto.
Qed.

(** One pass over the poses: round the rotation, shift the translation by t. *)
Definition pass_inv n (T0 : PoseArr R) (S : nat -> nat -> R) k (T : PoseArr R) : Prop :=
  traj d n T /\
  (forall i, (i < k)%nat -> rounds d (pblk T0 i) (pblk T i) /\ forall a, (a < d)%nat -> pblk T i a d = pblk T0 i a d - S i a) /\
  (forall i, (k <= i)%nat -> forall a c, (a < d)%nat -> (c < d + 1)%nat -> pblk T i a c = pblk T0 i a c).

Lemma rounds_ext A B A' B' : (forall i j, (i < d)%nat -> (j < d)%nat -> A i j = A' i j) ->
  (forall i j, (i < d)%nat -> (j < d)%nat -> B i j = B' i j) -> rounds d A B -> rounds d A' B'.
Proof.
  intros EA EB [[O D] H]. split; [split; [apply (orth_ext d d B); auto|rewrite <- D; apply det_ext; intros ? ? ? ?; symmetry; auto]|].
  intros Q' HQ. rewrite <- (dist2_ext d d A A' B B') by auto. rewrite <- (dist2_ext d d A A' Q' Q') by auto. auto.
Qed.

Lemma pass_step n T0 (S : nat -> nat -> R) k T (t : Mx R) : (k < n)%nat -> pass_inv n T0 S k T -> traj d n T0 ->
  (forall M, sized d d M -> (forall i j, (i < d)%nat -> (j < d)%nat -> M i j = pblk T0 k i j) -> svd_at (x_svd_full x) d d M) ->
  exists Ri T1, pa_rot T k = Ok Ri /\ pa_set_rot T k (projectToRotationGroup (x_svd_full x) (x_det x) Ri) = Ok T1 /\ traj d n T1 /\
    (forall j a, (a < d)%nat -> pblk T1 j a d = pblk T j a d) /\
    exists ti, pa_trans T1 k = Ok ti /\ sized d 1 ti /\
    (sized d 1 t -> (forall a, (a < d)%nat -> t a 0%nat = S k a) ->
     exists T2, pa_set_trans T1 k (msub ti t) = Ok T2 /\ pass_inv n T0 S (Datatypes.S k) T2).
Proof.
  intros Hk (HT & H1 & H2) HT0 Hsvd.
  destruct (arr_parts d d n T k HT Hk) as (Ri & ti0 & ER & _ & SR & _ & VR & _).
  assert (E0 : forall i j, (i < d)%nat -> (j < d)%nat -> Ri i j = pblk T0 k i j) by (intros i j Hi Hj; rewrite VR; apply H2; auto; lia).
  destruct (round_ok Ri (pblk T0 k) SR E0 (Hsvd Ri SR E0)) as [SQ RQ].
  set (Q := projectToRotationGroup (x_svd_full x) (x_det x) Ri) in *.
  destruct (set_rot_entry d n T k Q HT Hk SQ) as (T1 & E1 & HT1 & V1 & V1').
  exists Ri, T1. split; auto. split; auto. split; auto. split; [intros j a Ha; apply V1'; auto; lia|].
  destruct (arr_parts d d n T1 k HT1 Hk) as (R' & ti & _ & Et & _ & St & _ & Vt). exists ti. split; auto. split; auto.
  intros Stt Ett. assert (SM : sized d 1 (msub ti t)) by (split; [apply St|apply St]).
  destruct (set_trans_entry d n T1 k (msub ti t) HT1 Hk SM) as (T2 & E2 & HT2 & V2 & V2').
  exists T2. split; auto. split; auto. split.
  - intros i Hi. destruct (Nat.eq_dec i k) as [->|Ni].
    + split.
      * apply (rounds_ext (pblk T0 k) Q); auto. intros a c Ha Hc. rewrite V2' by (auto; lia). symmetry. apply V1; auto.
      * intros a Ha. rewrite V2 by auto. transitivity (ti a 0%nat - t a 0%nat); [reflexivity|]. rewrite Vt, Ett by auto.
        rewrite V1' by (auto; lia). rewrite H2 by (auto; lia). reflexivity.
    + destruct (H1 i ltac:(lia)) as [A B]. split.
      * apply (rounds_ext (pblk T0 i) (pblk T i)); auto. intros a c Ha Hc. rewrite V2' by (auto; lia). rewrite V1' by (auto; lia). reflexivity.
      * intros a Ha. rewrite V2', V1' by (auto; lia). auto.
  - intros i Hi a c Ha Hc. rewrite V2' by (auto; lia). rewrite V1' by (auto; lia). apply H2; auto; lia.
Qed.
End P.

Lemma seen_blk r d n (Y : Mx R) (X T : PoseArr R) : sized r d Y -> arr r d n X -> traj d n T -> pa_X T = mmul (mtr Y) (pa_X X) ->
  forall i a c, pblk T i a c = seen r Y (pblk X i) a c.
Proof.
  intros [Y1 Y2] (R1 & D1 & _) (_ & D2 & _) E i a c. unfold pblk, seen. rewrite D1, D2, E. simpl. rewrite Y1. reflexivity.
Qed.

Lemma export_base r d n (Y : Mx R) (X : PoseArr R) : sized r d Y -> arr r d n X ->
  exists T0 T, pa_new d d n = Ok T0 /\ can_mul (mtr Y) (pa_X X) = true /\ pa_setData T0 (mmul (mtr Y) (pa_X X)) = Ok T /\
    traj d n T /\ (forall i a c, pblk T i a c = seen r Y (pblk X i) a c).
Proof.
  intros SY AX. destruct (pa_new_traj d n) as (T0 & E0 & TT0). exists T0.
  pose proof AX as (R1 & D1 & N1 & M1 & C1). pose proof TT0 as (R2 & D2 & N2 & M2 & C2). destruct SY as [Y1 Y2].
  exists (mkPA d d n (mmul (mtr Y) (pa_X X))). split; auto.
  split; [unfold can_mul; cbn [mtr mcols]; rewrite Y1, M1; apply Nat.eqb_refl|].
  split. { rewrite (pa_setData_spec T0 (mmul (mtr Y) (pa_X X))); [rewrite R2, D2, N2; reflexivity| |]; simpl; congruence. }
  assert (TT : traj d n (mkPA d d n (mmul (mtr Y) (pa_X X)))) by (unfold traj; simpl; auto).
  split; auto. apply (seen_blk r d n Y X); auto. split; auto.
Qed.

Section E.
Variables (x : Ext R) (a : Agent R) (d r n : nat).
Hypothesis (Ed : p_d (a_params a) = d) (Er : p_r (a_params a) = r) (En : num_poses a = n) (Hs : a_state a = INITIALIZED)
  (AX : arr r d n (a_X a)) (Hdet : det_ok (x_det x) d).

Lemma global_frame Xa : a_anchor a = Some Xa -> sized r (d + 1) Xa -> relaxation_rank a = r -> dimension a = d ->
  svds_ok x r d Xa (a_X a) n ->
  exists T, ag_getTrajectoryInGlobalFrame x a = Ok (Some T) /\ traj d n T /\ forall i, (i < n)%nat ->
    rounds d (seen r Xa (pblk (a_X a) i)) (pblk T i) /\
    forall k, (k < d)%nat -> pblk T i k d = seen r Xa (pblk (a_X a) i) k d - seen r Xa Xa k d.
Proof.
  intros HA [X1 X2] Er' Ed' Hsvd. unfold ag_getTrajectoryInGlobalFrame, anchor_ok. rewrite HA, Er', Ed', X1, X2, !Nat.eqb_refl. cbn [check andb].
  unfold is_init. rewrite Hs. cbn [state_eqb negb]. rewrite Ed, En.
  set (Ya := anchor_rot a Xa). assert (SY : sized r d Ya) by (unfold Ya, anchor_rot; split; simpl; lia).
  assert (VY : forall k j, Ya k j = Xa k j) by reflexivity.
  destruct (export_base r d n Ya (a_X a) SY AX) as (T0 & T & E0 & C & E1 & TT & V). rewrite E0. cbn [bind]. rewrite C. cbn [require]. rewrite E1. cbn [bind].
  set (t0 := mmul (mtr Ya) (anchor_trans a Xa)).
  assert (St : sized d 1 t0) by (split; [simpl; lia|reflexivity]).
  assert (Vt : forall k, t0 k 0%nat = seen r Xa Xa k d).
  { intros k. unfold t0, seen. simpl. rewrite X1. apply rsum_ext. intros l _. unfold anchor_trans. simpl. rewrite X2. do 2 f_equal. lia. }
  set (f := fun (T1 : PoseArr R) i => _).
  destruct (foldM_seq_inv (pass_inv d n T (fun _ k => seen r Xa Xa k d)) f T n) with (k := n) as (T' & ET & HT' & HI & _).
  - split; auto. split; [intros; lia|auto].
  - intros k T1 Hk P1. destruct (pass_step x d Hdet n T (fun _ k => seen r Xa Xa k d) k T1 t0 Hk P1 TT) as (Ri & T2 & A1 & A2 & _ & _ & ti & A3 & A4 & A5).
    { intros M SM EM. apply (Hsvd k M Hk SM). intros i j Hi Hj. rewrite EM, V by auto. reflexivity. }
    destruct A5 as (T3 & A6 & A7); auto.
    unfold f. rewrite A1. cbn [bind]. rewrite A2. cbn [bind]. rewrite A3. cbn [bind]. unfold same_size.
    rewrite (proj1 A4), (proj2 A4), (proj1 St), (proj2 St), !Nat.eqb_refl. cbn [andb require]. rewrite A6. exists T3. auto.
  - lia.
  - rewrite ET. cbn [bind]. exists T'. split; auto. split; auto. intros i Hi. destruct (HI i Hi) as [B1 B2]. split.
    + apply (rounds_ext d (pblk T i) (pblk T' i)); auto.
    + intros k Hk. rewrite B2, V by auto. reflexivity.
Qed.

Lemma local_frame : svds_ok x r d (pblk (a_X a) 0) (a_X a) n -> (0 < n)%nat ->
  exists T, ag_getTrajectoryInLocalFrame x a = Ok (Some (pa_X T)) /\ traj d n T /\ forall i, (i < n)%nat ->
    rounds d (seen r (pblk (a_X a) 0) (pblk (a_X a) i)) (pblk T i) /\
    forall k, (k < d)%nat -> pblk T i k d = if (i =? 0)%nat then 0 else seen r (pblk (a_X a) 0) (pblk (a_X a) i) k d.
Proof.
  intros Hsvd Hn. unfold ag_getTrajectoryInLocalFrame, is_init. rewrite Hs. cbn [state_eqb negb]. rewrite Ed, En.
  destruct (arr_parts r d n (a_X a) 0 AX Hn) as (Y & t & EY & _ & SY & _ & VY & _).
  destruct (export_base r d n Y (a_X a) SY AX) as (T0 & T & E0 & C & E1 & TT & V). rewrite E0. cbn [bind]. rewrite EY. cbn [bind]. rewrite C. cbn [require]. rewrite E1. cbn [bind].
  destruct (arr_parts d d n T 0 TT Hn) as (R' & t' & _ & Et & _). rewrite Et. cbn [bind].
  assert (V' : forall i k c, pblk T i k c = seen r (pblk (a_X a) 0) (pblk (a_X a) i) k c).
  { intros i k c. rewrite V. unfold seen. apply rsum_ext. intros l _. rewrite VY. reflexivity. }
  set (sh := fun i k => if (i =? 0)%nat then pblk T 0 k d else 0).
  set (f := fun (T1 : PoseArr R) i => _).
  destruct (foldM_seq_inv (pass_inv d n T sh) f T n) with (k := n) as (T' & ET & HT' & HI & _).
  - split; auto. split; [intros; lia|auto].
  - intros k T1 Hk P1.
    destruct (pass_step x d Hdet n T sh k T1 (mzero d 1) Hk P1 TT) as (Ri & T2 & A1 & A2 & TT2 & V2 & _).
    { intros M SM EM. apply (Hsvd k M Hk SM). intros i j Hi Hj. rewrite EM, V' by auto. reflexivity. }
    destruct (arr_parts d d n T2 0 TT2 Hn) as (R0 & t0 & _ & Et0 & _ & St0 & _ & Vt0).
    assert (Vsh : forall b, (b < d)%nat -> t0 b 0%nat = sh k b).
    { intros b Hb. rewrite Vt0, V2 by auto. destruct P1 as (_ & P2 & P3). unfold sh. destruct (Nat.eqb_spec k 0) as [->|Nk].
      - apply P3; auto; lia.
      - destruct (P2 0%nat ltac:(lia)) as [_ P4]. rewrite P4 by auto. unfold sh. cbn [Nat.eqb]. lra. }
    destruct (pass_step x d Hdet n T sh k T1 t0 Hk P1 TT) as (Ri' & T2' & A1' & A2' & _ & _ & ti & A3 & A4 & A5).
    { intros M SM EM. apply (Hsvd k M Hk SM). intros i j Hi Hj. rewrite EM, V' by auto. reflexivity. }
    assert (Ri' = Ri) by congruence. subst Ri'. assert (T2' = T2) by congruence. subst T2'.
    destruct A5 as (T3 & A6 & A7); auto.
    unfold f. rewrite A1. cbn [bind]. rewrite A2. cbn [bind]. rewrite A3. cbn [bind]. rewrite Et0. cbn [bind]. rewrite A6. exists T3. auto.
  - lia.
  - rewrite ET. cbn [bind]. exists T'. split; auto. split; auto. intros i Hi. destruct (HI i Hi) as [B1 B2]. split.
    + apply (rounds_ext d (pblk T i) (pblk T' i)); auto.
    + intros k Hk. rewrite B2 by auto. unfold sh. rewrite <- V'. destruct (Nat.eqb_spec i 0) as [->|]; [lra|lra].
Qed.
End E.

(** ** On reachable agents *)
Lemma reach_sizes x id p os (a : Agent R) : areach x id p os a ->
  a_params a = p /\ relaxation_rank a = p_r p /\ dimension a = p_d p /\
  (a_state a = INITIALIZED -> arr (p_r p) (p_d p) (num_poses a) (a_X a) /\ (0 < num_poses a)%nat) /\
  (forall Xa, a_anchor a = Some Xa -> sized (p_r p) (p_d p + 1) Xa).
Proof.
  intros Ra. pose proof (areach_inv _ _ _ _ _ Ra) as I. destruct (hist_all _ _ _ _ _ Ra) as (Hid & Hp & _).
  split; auto. split; [unfold relaxation_rank; rewrite (iv_r _ I), Hp; auto|]. split; [unfold dimension; rewrite (iv_d _ I), Hp; auto|]. split.
  - intros Hs. destruct (iv_X _ I) as [A B]; [congruence|]. rewrite Hp in B. split; auto. unfold num_poses. lia.
  - intros Xa HA. destruct (iv_anc _ I _ HA) as [A B]. rewrite Hp in A, B. split; auto.
Qed.

Theorem c31_global : forall x id p os (a : Agent R) Xa, areach x id p os a -> let d := p_d p in let r := p_r p in let n := num_poses a in
  a_state a = INITIALIZED -> a_anchor a = Some Xa -> det_ok (x_det x) d -> svds_ok x r d Xa (a_X a) n ->
  exists T, ag_getTrajectoryInGlobalFrame x a = Ok (Some T) /\ traj d n T /\ forall i, (i < n)%nat ->
    rounds d (seen r Xa (pblk (a_X a) i)) (pblk T i) /\
    forall k, (k < d)%nat -> pblk T i k d = seen r Xa (pblk (a_X a) i) k d - seen r Xa Xa k d.
Proof.
  intros x id p os a Xa Ra d r n Hs HA Hdet Hsvd. destruct (reach_sizes _ _ _ _ _ Ra) as (Hp & Er & Ed & HX & Han).
  apply (global_frame x a d r n); auto; try (unfold d, r; congruence). apply HX; auto.
Qed.

Lemma seen_ext r A B A' B' i j : (forall k, (k < r)%nat -> A k i = A' k i) -> (forall k, (k < r)%nat -> B k j = B' k j) ->
  seen r A B i j = seen r A' B' i j.
Proof. intros EA EB. unfold seen. apply rsum_ext. intros k Hk. rewrite EA, EB by auto. reflexivity. Qed.

Lemma rounds_exact d M Q : rot_block d M -> rounds d M Q -> forall i j, (i < d)%nat -> (j < d)%nat -> Q i j = M i j.
Proof.
  intros [O D] [_ H] i j Hi Hj. symmetry. apply (dist2_zero d d); auto. apply Rle_antisym; [|apply dist2_nonneg].
  apply (Rle_trans _ _ _ (H (mkMx d d M) ltac:(unfold rotation; simpl; auto))). right. unfold dist2. apply rsum_zero'. intros.
  apply rsum_zero'. intros. unfold sq. simpl. ring.
Qed.

Theorem c31_local : forall x id p os (a : Agent R), areach x id p os a -> let d := p_d p in let r := p_r p in let n := num_poses a in
  let X0 := pblk (a_X a) 0 in
  a_state a = INITIALIZED -> det_ok (x_det x) d -> svds_ok x r d X0 (a_X a) n ->
  exists T, ag_getTrajectoryInLocalFrame x a = Ok (Some (pa_X T)) /\ traj d n T /\
    (forall i, (i < n)%nat -> rounds d (seen r X0 (pblk (a_X a) i)) (pblk T i)) /\
    (forall i k, (i < n)%nat -> (k < d)%nat -> pblk T i k d = if (i =? 0)%nat then 0 else seen r X0 (pblk (a_X a) i) k d) /\
    ((forall i k, (i < n)%nat -> (k < d)%nat -> pblk T i k d = seen r X0 (pblk (a_X a) i) k d - seen r X0 X0 k d) <->
     n = 1%nat \/ forall k, (k < d)%nat -> seen r X0 X0 k d = 0) /\
    (orthonormal r d X0 -> beq d (pblk T 0) unit_block).
Proof.
  intros x id p os a Ra d r n X0 Hs Hdet Hsvd. destruct (reach_sizes _ _ _ _ _ Ra) as (Hp & Er & Ed & HX & Han).
  destruct (HX Hs) as [AX Hn].
  destruct (local_frame x a d r n) as (T & ET & TT & V); auto; try (unfold d, r; congruence).
  exists T. split; auto. split; auto. split; [intros i Hi; apply V; auto|]. split; [intros i k Hi Hk; apply V; auto|]. split; [split|].
  - intros HD. destruct (Nat.eq_dec n 1) as [E1|E1]; [auto|right]. intros k Hk. fold n in Hn.
    assert (H1 : (1 < n)%nat) by lia. pose proof (HD 1%nat k H1 Hk) as A. rewrite (proj2 (V 1%nat H1) k Hk) in A. cbn [Nat.eqb] in A. unfold X0 in *. lra.
  - intros HD i k Hi Hk. rewrite (proj2 (V i Hi) k Hk). destruct (Nat.eqb_spec i 0) as [->|Ni]; [unfold X0; lra|].
    destruct HD as [->|HD]; [lia|]. rewrite HD by auto. unfold X0. lra.
  - intros OX k j Hk Hj. destruct (V 0%nat Hn) as [V1 V2]. destruct (Nat.eq_dec j d) as [->|Nj].
    + rewrite V2 by auto. cbn [Nat.eqb]. unfold unit_block. destruct (Nat.eqb_spec k d); [lia|reflexivity].
    + assert (E : forall a b, (a < d)%nat -> (b < d)%nat -> seen r X0 X0 a b = idm a b) by (intros b c Hb Hc; apply OX; auto).
      rewrite (rounds_exact d (seen r X0 X0) (pblk T 0)); auto; try lia; [apply E; lia|]. split.
      * apply (orth_ext d d idm); [intros ? ? ? ?; symmetry; apply E; auto|]. apply orth_idm.
      * rewrite (det_ext d (seen r X0 X0) idm); [apply det_idm|intros ? ? ? ?; apply E; auto].
Qed.

(** The export undoes the lifting: estimate Y_L P_i, anchor Y_L P_a. *)
Lemma seen_lift r d (Y : nat -> nat -> R) A B : orthonormal r d Y -> forall i j, (j <= d)%nat -> (i < d)%nat ->
  seen r (lift d Y A) (lift d Y B) i j = rsum d (fun k => A k i * B k j).
Proof.
  intros OY i j Hj Hi. unfold seen.
  transitivity (rsum r (fun k => rsum d (fun a => rsum d (fun b => (A a i * B b j) * (Y k a * Y k b))))).
  { apply rsum_ext. intros k _. unfold lift. rewrite <- rsum_scal_r. apply rsum_ext. intros a _. rewrite <- rsum_scal. apply rsum_ext. intros b _. ring. }
  rewrite rsum_swap. transitivity (rsum d (fun a => rsum d (fun b => (A a i * B b j) * (if (a =? b)%nat then 1 else 0)))).
  { apply rsum_ext. intros a Ha. rewrite rsum_swap. apply rsum_ext. intros b Hb. rewrite rsum_scal. f_equal. apply OY; auto. }
  apply rsum_ext. intros a Ha. transitivity (rsum d (fun b => if (a =? b)%nat then A a i * B b j else 0)).
  { apply rsum_ext. intros b _. destruct (a =? b)%nat; ring. }
  apply (rsum_delta' d a (fun b => A a i * B b j)); auto.
Qed.

Lemma rel_entry d A B k j : (k < d)%nat -> (j <= d)%nat ->
  rel d A B k j = rsum d (fun l => A l k * B l j) - (if (j =? d)%nat then rsum d (fun l => A l k * A l d) else 0).
Proof.
  intros Hk Hj. unfold rel, comp, pinv.
  rewrite (rsum_ext d (fun l => (if (l =? d)%nat then - rsum d (fun k0 => A k0 k * A k0 d) else A l k) * B l j) (fun l => A l k * B l j)).
  - rewrite Nat.eqb_refl. destruct (j =? d)%nat; lra.
  - intros l Hl. destruct (Nat.eqb_spec l d); [lia|reflexivity].
Qed.

Theorem c31_exact : forall x id p os (a : Agent R) Xa YL P Pa, areach x id p os a -> let d := p_d p in let r := p_r p in let n := num_poses a in
  a_state a = INITIALIZED -> a_anchor a = Some Xa -> det_ok (x_det x) d -> svds_ok x r d Xa (a_X a) n ->
  orthonormal r d YL -> rot_block d Pa -> (forall i, (i < n)%nat -> rot_block d (P i)) ->
  (forall k j, (k < r)%nat -> (j < d + 1)%nat -> Xa k j = lift d YL Pa k j) ->
  (forall i k j, (i < n)%nat -> (k < r)%nat -> (j < d + 1)%nat -> pblk (a_X a) i k j = lift d YL (P i) k j) ->
  exists T, ag_getTrajectoryInGlobalFrame x a = Ok (Some T) /\ traj d n T /\ forall i, (i < n)%nat -> beq d (pblk T i) (rel d Pa (P i)).
Proof.
  intros x id p os a Xa YL P Pa Ra d r n Hs HA Hdet Hsvd OY RPa RP EXa EX.
  destruct (c31_global x id p os a Xa Ra Hs HA Hdet Hsvd) as (T & ET & TT & V).
  exists T. split; auto. split; auto. intros i Hi. destruct (V i Hi) as [V1 V2].
  assert (S1 : forall k j, (k < d)%nat -> (j < d + 1)%nat -> seen r Xa (pblk (a_X a) i) k j = rsum d (fun l => Pa l k * P i l j)).
  { intros k j Hk Hj. rewrite (seen_ext r Xa (pblk (a_X a) i) (lift d YL Pa) (lift d YL (P i))) by (intros; (apply EXa || apply EX); auto; lia).
    apply seen_lift; auto; lia. }
  assert (S2 : forall k, (k < d)%nat -> seen r Xa Xa k d = rsum d (fun l => Pa l k * Pa l d)).
  { intros k Hk. rewrite (seen_ext r Xa Xa (lift d YL Pa) (lift d YL Pa)) by (intros; apply EXa; auto; lia). apply seen_lift; auto. }
  assert (S3 : forall k j, (k < d)%nat -> (j < d)%nat -> seen r Xa (pblk (a_X a) i) k j = rel d Pa (P i) k j).
  { intros k j Hk Hj. rewrite rel_entry by lia. destruct (Nat.eqb_spec j d); [lia|]. rewrite S1 by lia. lra. }
  intros k j Hk Hj. destruct (Nat.eq_dec j d) as [->|Nj].
  - rewrite V2, S1, S2, rel_entry by lia. rewrite Nat.eqb_refl. reflexivity.
  - rewrite (rounds_exact d (seen r Xa (pblk (a_X a) i)) (pblk T i)); auto; try lia; [apply S3; lia|].
    assert (RR : rot_block d (rel d Pa (P i))) by (apply comp_rot; [apply pinv_rot|]; auto). destruct RR as [RO RD].
    split; [apply (orth_ext d d (rel d Pa (P i))); auto; intros ? ? ? ?; symmetry; apply S3; auto|].
    fold r. rewrite <- RD. apply det_ext. intros ? ? ? ?; apply S3; auto.
Qed.

Theorem c31_pose : forall x id p os (a : Agent R) Xa i, areach x id p os a -> let d := p_d p in let r := p_r p in
  a_state a = INITIALIZED -> a_anchor a = Some Xa ->
  (pg_n (a_pg a) <= i -> ag_getPoseInGlobalFrame a i = Ok None)%N /\
  ((i < pg_n (a_pg a))%N -> exists P, ag_getPoseInGlobalFrame a i = Ok (Some P) /\ sized d (d + 1) P /\
     forall k j, (k < d)%nat -> (j < d + 1)%nat -> 
       P k j = seen r Xa (pblk (a_X a) (N.to_nat i)) k j - (if (j =? d)%nat then seen r Xa Xa k d else 0)).
Proof.
  intros x id p os a Xa i Ra d r Hs HA. destruct (reach_sizes _ _ _ _ _ Ra) as (Hp & Er & Ed & HX & Han).
  destruct (HX Hs) as [AX Hn]. destruct (Han Xa HA) as [X1 X2]. fold r in X1. fold d in X2.
  unfold ag_getPoseInGlobalFrame, anchor_ok. rewrite HA, Er, Ed. fold d r. rewrite X1, X2, !Nat.eqb_refl. cbn [check andb].
  unfold is_init. rewrite Hs. cbn [state_eqb negb]. split; intros Hi.
  - apply N.leb_le in Hi. rewrite Hi. reflexivity.
  - destruct (N.leb_spec (pg_n (a_pg a)) i); [lia|].
    assert (Hi' : (N.to_nat i < num_poses a)%nat) by (unfold num_poses; lia).
    pose proof AX as (A1 & A2 & A3 & A4 & A5). fold r in A1, A4. fold d in A2, A5.
    unfold pa_pose. rewrite A3, A1, A2. destruct (Nat.ltb_spec (N.to_nat i) (num_poses a)); [|lia]. cbn [check bind].
    unfold can_mul, anchor_rot. cbn [mtr mblock mcols mmul mrows sub_col]. rewrite X1, X2, !Nat.eqb_refl. cbn [require].
    rewrite Hp. fold d.
    destruct (Nat.ltb_spec d (d + 1)); [|lia]. cbn [require]. replace (d + 1 - 1)%nat with d by lia. rewrite !Nat.eqb_refl. cbn [check].
    eexists. split; [reflexivity|]. split; [split; reflexivity|]. intros k j Hk Hj. cbn [Num.mat sub_col mmul mtr mblock mrows mcols anchor_trans].
    rewrite ?X1, ?X2. unfold seen, pblk. rewrite A2. fold d. replace (d + 1 - 1)%nat with d by lia.
    destruct (Nat.eqb_spec j d) as [->|]; cbn [Nat.add]; [rewrite Nat.add_0_r; reflexivity|]. transitivity (rsum r (fun k0 => Xa k0 k * pa_X (a_X a) k0 (N.to_nat i * (d + 1) + j)%nat)); [reflexivity|lra].
Qed.

Theorem c31_neighbour : forall x id p os (a : Agent R) Xa k i, areach x id p os a -> let d := p_d p in let r := p_r p in
  a_state a = INITIALIZED -> a_anchor a = Some Xa ->
  match mfind pose_ltb (mkPoseID k i) (a_ndict a) with
  | None => ag_getNeighborPoseInGlobalFrame a k i = Ok None
  | Some Xi => exists P, ag_getNeighborPoseInGlobalFrame a k i = Ok (Some P) /\ sized d (d + 1) P /\
     forall l j, (l < d)%nat -> (j < d + 1)%nat -> P l j = seen r Xa Xi l j - (if (j =? d)%nat then seen r Xa Xa l d else 0)
  end.
Proof.
  intros x id p os a Xa k i Ra d r Hs HA. destruct (reach_sizes _ _ _ _ _ Ra) as (Hp & Er & Ed & HX & Han).
  destruct (Han Xa HA) as [X1 X2]. fold r in X1. fold d in X2. pose proof (areach_inv _ _ _ _ _ Ra) as I.
  unfold ag_getNeighborPoseInGlobalFrame, anchor_ok. rewrite HA, Er, Ed. fold d r. rewrite X1, X2, !Nat.eqb_refl. cbn [check andb].
  unfold is_init. rewrite Hs. cbn [state_eqb negb]. destruct (mfind pose_ltb (mkPoseID k i) (a_ndict a)) as [Xi|] eqn:EX; [|reflexivity].
  destruct (proj2 (iv_nd _ I) _ _ EX) as (_ & S1 & S2). rewrite Hp in S1, S2 |- *. fold r in S1 |- *. fold d in S2 |- *.
  rewrite S1, S2, !Nat.eqb_refl. cbn [check].
  set (Ya := anchor_rot a Xa). assert (SY : sized r d Ya) by (unfold Ya, anchor_rot; split; simpl; lia).
  unfold can_mul. cbn [mtr mcols]. rewrite (proj1 SY), S1, Nat.eqb_refl. cbn [require].
  assert (SM : sized d (d + 1) (mmul (mtr Ya) Xi)) by (split; simpl; [apply SY|auto]).
  destruct (mx_pose d (mmul (mtr Ya) Xi) SM) as (EQ & WQ). rewrite EQ. cbn [bind].
  set (Q := mkPA d d 1 (mmul (mtr Ya) Xi)) in *.
  assert (TQ : traj d 1 Q). { destruct WQ as (A1 & A2 & A3 & A4 & A5). unfold traj. rewrite A1, A2, A3, A4, A5. repeat split; lia. }
  assert (VQ : forall l j, (l < d)%nat -> (j < d + 1)%nat -> pa_X Q l j = rsum (mrows Ya) (fun k => Ya k l * Xi k j)) by reflexivity.
  destruct (arr_parts d d 1 Q 0 TQ) as (R' & t & _ & Et & _ & St & _ & Vt); [lia|]. rewrite Et. cbn [bind].
  set (t0 := mmul (mtr Ya) (anchor_trans a Xa)).
  assert (S0 : sized d 1 t0) by (split; [simpl; lia|reflexivity]).
  assert (Vt0 : forall l, t0 l 0%nat = seen r Xa Xa l d).
  { intros l. unfold t0, seen. simpl. rewrite X1. apply rsum_ext. intros b _. unfold anchor_trans. simpl. rewrite X2. do 2 f_equal. lia. }
  unfold same_size. rewrite (proj1 St), (proj2 St), (proj1 S0), (proj2 S0), !Nat.eqb_refl. cbn [andb require].
  destruct (set_trans_entry d 1 Q 0 (msub t t0) TQ ltac:(lia)) as (T2 & E2 & TT2 & V2 & V2'); [split; apply St|].
  rewrite E2. cbn [bind]. exists (pa_X T2). split; auto. pose proof TT2 as (_ & D2 & _ & B4 & B5).
  split; [split; [auto|rewrite B5; lia]|]. intros l j Hl Hj.
  assert (BQ : forall l j, (l < d)%nat -> (j < d + 1)%nat -> pblk Q 0 l j = seen r Xa Xi l j).
  { intros l' j' Hl' Hj'. unfold pblk. cbn [Nat.mul Nat.add]. rewrite VQ by auto. unfold seen. simpl. rewrite X1. reflexivity. }
  change (pa_X T2 l j) with (pblk T2 0 l j). destruct (Nat.eqb_spec j d) as [->|Nj].
  - rewrite V2 by auto. transitivity (t l 0%nat - t0 l 0%nat); [reflexivity|]. rewrite Vt, Vt0, BQ by (auto; lia). reflexivity.
  - rewrite V2' by (auto; lia). rewrite BQ by auto. lra.
Qed.

(** Without an anchor, or before initialisation, nothing is returned. *)
Theorem c31_none : forall x id p os (a : Agent R), areach x id p os a -> a_state a <> INITIALIZED \/ a_anchor a = None ->
  ag_getTrajectoryInGlobalFrame x a = Ok None /\ (forall i, ag_getPoseInGlobalFrame a i = Ok None) /\
  (forall k i, ag_getNeighborPoseInGlobalFrame a k i = Ok None) /\
  (a_state a <> INITIALIZED -> ag_getTrajectoryInLocalFrame x a = Ok None).
Proof.
  intros x id p os a Ra Hn. destruct (reach_sizes _ _ _ _ _ Ra) as (Hp & Er & Ed & HX & Han).
  assert (NI : a_state a <> INITIALIZED -> is_init a = false).
  { intros Hs. unfold is_init. destruct (a_state a); auto; contradiction. }
  unfold ag_getTrajectoryInGlobalFrame, ag_getPoseInGlobalFrame, ag_getNeighborPoseInGlobalFrame, ag_getTrajectoryInLocalFrame.
  destruct (a_anchor a) as [Xa|] eqn:HA.
  - destruct Hn as [Hs|]; [|discriminate]. rewrite (NI Hs). destruct (Han Xa eq_refl) as [X1 X2]. unfold anchor_ok.
    rewrite Er, Ed, X1, X2, !Nat.eqb_refl. cbn [andb check negb]. auto.
  - repeat split; auto. intros Hs. rewrite (NI Hs). reflexivity.
Qed.
