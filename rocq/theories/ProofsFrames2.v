(** Frame alignment between robots and entering the global frame (C29, C30). *)
From Coq Require Import List NArith ZArith Bool Arith Lia Reals Lra.
From Verif Require Import Base SMap Num RSum Det ModelTypes ModelPoseGraph ModelProblem ModelRobust ModelPoses ModelSolver ModelAgent
  SpecPoseGraph SpecCost SpecSolver SpecAgent SpecFrames MatR ProofsPoseGraph ProofsSolver ProofsPoses ProofsOdom ProofsFrames
  ProofsAgent ProofsAgent2 ProofsAgent3 ProofsAgent4.
Import ListNotations.
Local Open Scope R_scope.

(** ** The transform from one measurement *)
Section T.
Variable d r : nat.

Lemma unlift (YL : Mx R) A (M : Mx R) : orthonormal r d YL -> sized r d YL -> sized r (d + 1) M ->
  (forall i j, (i < r)%nat -> (j < d + 1)%nat -> M i j = lift d YL A i j) ->
  sized d (d + 1) (mmul (mtr YL) M) /\ beq d (mmul (mtr YL) M) A.
Proof.
  intros O [Y1 Y2] [M1 M2] E. split; [split; simpl; auto|].
  intros i j Hi Hj. transitivity (rsum r (fun k => YL k i * M k j)); [simpl; rewrite Y1; reflexivity|].
  rewrite (rsum_ext r _ (fun k => YL k i * lift d YL A k j)) by (intros k Hk; rewrite E by auto; reflexivity).
  pose proof (mul_assoc d r (tr YL) YL A i j) as Q. unfold mul, tr in Q. unfold lift.
  rewrite <- Q. rewrite (rsum_ext d _ (fun k => if Nat.eqb i k then A k j else 0)).
  - rewrite rsum_delta'; auto.
  - intros k Hk. rewrite (O i k) by auto. destruct (Nat.eqb i k); ring.
Qed.

Lemma pose_of_parts (m : Meas R) : sized d d (mR m) -> sized d 1 (mt m) ->
  exists I dT dT', pose_identity d = Ok I /\ wf1 d I /\ pa_set_rot I 0 (mR m) = Ok dT /\ pa_set_trans dT 0 (mt m) = Ok dT' /\
    wf1 d dT' /\ beq d (pa_X dT') (mblk d m).
Proof.
  intros S1 S2. destruct (blk_id d) as (I & EI & WI & _). exists I.
  assert (TI : traj d 1 I). { destruct WI as (A & B & C & D & E). unfold traj. rewrite Nat.mul_1_r. auto. }
  destruct (set_rot_entry d 1 I 0 (mR m) TI ltac:(lia) S1) as (T1 & E1 & H1 & H2 & _).
  destruct (set_trans_entry d 1 T1 0 (mt m) H1 ltac:(lia) S2) as (T2 & E2 & H3 & H4 & H5).
  exists T1, T2. split; auto. split; auto. split; auto. split; auto.
  assert (W2 : wf1 d T2). { destruct H3 as (A & B & C & D & E). rewrite Nat.mul_1_r in E. unfold wf1. auto. }
  split; auto. intros i j Hi Hj. unfold mblk. destruct (Nat.eqb_spec j d) as [->|Nj].
  - rewrite <- (H4 i) by auto. reflexivity.
  - rewrite <- (H2 i j) by (auto; lia). rewrite <- (H5 0%nat i j) by (auto; lia). reflexivity.
Qed.

Lemma mblk_rot (m : Meas R) : rot_block d (mR m) -> rot_block d (mblk d m).
Proof.
  intros [O D]. split.
  - apply (orth_ext d d (mR m)); auto. intros i j Hi Hj. unfold mblk. rewrite (proj2 (Nat.eqb_neq j d)) by lia. reflexivity.
  - rewrite <- D. apply det_ext. intros i j Hi Hj. unfold mblk. rewrite (proj2 (Nat.eqb_neq j d)) by lia. reflexivity.
Qed.
End T.

Section A.
Variables (x : Ext R) (a : Agent R) (m : Meas R) (nbr : Mx R) (Tn : nat -> nat -> R) (T : PoseArr R) (YL : Mx R) (n : nat).
Let d := p_d (a_params a).
Let r := p_r (a_params a).
Let fwd := (mr2 m =? a_id a)%N.
Let i := N.to_nat (u32 (if fwd then mp2 m else mp1 m)).
Hypothesis (HT : a_TLocal a = Some T) (TT : traj d n T) (HY : a_YLift a = Some YL) (SY : sized r d YL) (OY : orthonormal r d YL)
  (Hm : inverse_ok (x_minv x) d) (S1 : sized d d (mR m)) (S2 : sized d 1 (mt m)) (Rm : rot_block d (mR m))
  (SN : sized r (d + 1) nbr) (EN : forall k j, (k < r)%nat -> (j < d + 1)%nat -> nbr k j = lift d YL Tn k j) (Rn : rot_block d Tn)
  (Hi : (i < n)%nat) (Ri : rot_block d (pblk T i)).

Lemma traj1 (W : PoseArr R) : wf1 d W -> traj d 1 W.
Proof. intros (A & B & C & D & E). unfold traj. rewrite Nat.mul_1_r. auto. Qed.

(** The transform: pose of the neighbour, along the measurement, back over the local pose. *)
Lemma transform_ok : exists W, ag_computeNeighborTransform x a m nbr = Ok W /\ wf1 d W /\
  beq d (pa_X W) (comp d (comp d Tn (if fwd then mblk d m else pinv d (mblk d m))) (pinv d (pblk T i))).
Proof.
  unfold ag_computeNeighborTransform. fold d r. rewrite HY. cbn [bind].
  destruct SN as [N1 N2]. rewrite N1, N2, !Nat.eqb_refl. cbn [check].
  destruct (pose_of_parts d m S1 S2) as (I & dT & dT' & EI & WI & E1 & E2 & W2 & V2). rewrite EI. cbn [bind]. rewrite E1. cbn [bind]. rewrite E2. cbn [bind].
  unfold can_mul. cbn [mtr mcols]. rewrite (proj1 SY), N1, Nat.eqb_refl. cbn [require].
  destruct (unlift d r YL Tn nbr OY SY SN EN) as [SP BP].
  destruct (set_pose_entry d 1 I 0 (mmul (mtr YL) nbr) (traj1 _ WI) ltac:(lia) SP) as (W22 & EW & HW & VW & _).
  rewrite EW. cbn [bind]. rewrite HT. cbn [opt_value bind].
  assert (WW : wf1 d W22). { destruct HW as (A & B & C & D & E). rewrite Nat.mul_1_r in E. unfold wf1. auto. }
  assert (BW : beq d (pa_X W22) Tn). { intros k j Hk Hj. rewrite <- BP by auto. rewrite <- (VW k j) by auto. reflexivity. }
  assert (Rd : rot_block d (pa_X dT')) by (apply (rot_ext d (mblk d m)); [apply beq_sym; auto|apply mblk_rot; auto]).
  destruct (traj_pose d n T i TT Hi) as (P & EP & SP' & VP).
  assert (BPi : beq d P (pblk T i)) by (intros k j _ _; apply VP).
  assert (RP : rot_block d P) by (apply (rot_ext d (pblk T i)); [apply beq_sym|]; auto).
  destruct WI as (I1 & I2 & I3 & I4 & I5).
  assert (ED : pa_setData I P = Ok (mkPA d d 1 P)).
  { rewrite (pa_setData_spec I P); [rewrite I1, I2, I3; reflexivity|rewrite I1; apply SP'|rewrite I2, I3, Nat.mul_1_r; apply SP']. }
  destruct (mx_pose d P SP') as [_ WP].
  destruct (blk_inv (x_minv x) d (mkPA d d 1 P) WP RP Hm) as (Pi & EPi & WPi & VPi).
  assert (BPinv : beq d (pa_X Pi) (pinv d (pblk T i))) by (apply (beq_trans d _ (pinv d P)); [exact VPi|apply pinv_ext; auto]).
  destruct (blk_inv (x_minv x) d dT' W2 Rd Hm) as (Di & EDi & WDi & VDi).
  assert (BD : beq d (pa_X Di) (pinv d (mblk d m))) by (apply (beq_trans d _ (pinv d (pa_X dT'))); [exact VDi|apply pinv_ext; auto]).
  (* the last steps, for either middle factor *)
  assert (FIN : forall F G B, pose_inverse (x_minv x) F = Ok G -> wf1 d G -> beq d (pa_X G) B ->
    exists W, (do F2F1 <- pose_inverse (x_minv x) F; do W2F1 <- pose_mul W22 F2F1; do F1W1 <- pose_inverse (x_minv x) (mkPA d d 1 P);
      do W2W1 <- pose_mul W2F1 F1W1; do R <- pa_rot W2W1 0; do _ <- checkRotationMatrix R; Ok W2W1)%res = Ok W /\ wf1 d W /\
      beq d (pa_X W) (comp d (comp d Tn B) (pinv d (pblk T i)))).
  { intros F G B EF WG BG. rewrite EF. cbn [bind]. destruct (blk_mul d W22 G WW WG) as (A1 & EA1 & WA1 & VA1). rewrite EA1. cbn [bind].
    rewrite EPi. cbn [bind]. destruct (blk_mul d A1 Pi WA1 WPi) as (A2 & EA2 & WA2 & VA2). rewrite EA2. cbn [bind].
    pose proof WA2 as (Q1 & Q2 & Q3 & Q4 & Q5). unfold pa_rot. rewrite Q3. cbn [Nat.ltb Nat.leb check bind].
    unfold checkRotationMatrix. cbn [mcols mrows mblock]. rewrite Q1, Q2, Nat.eqb_refl. cbn [check bind].
    exists A2. split; auto. split; auto. apply (beq_trans d _ _ _ VA2). apply comp_ext; auto.
    apply (beq_trans d _ _ _ VA1). apply comp_ext; auto. }
  unfold fwd in *. destruct (mr2 m =? a_id a)%N eqn:Ef.
  - rewrite EDi. cbn [bind]. fold i. rewrite EP. cbn [bind]. rewrite ED. cbn [bind].
    assert (RDi : rot_block d (pa_X Di)) by (apply (rot_ext d (pinv d (mblk d m))); [apply beq_sym; auto|apply pinv_rot, mblk_rot; auto]).
    destruct (blk_inv (x_minv x) d Di WDi RDi Hm) as (Dii & EDii & WDii & VDii).
    apply (FIN Di Dii (mblk d m) EDii WDii).
    apply (beq_trans d _ (pinv d (pinv d (mblk d m)))); [apply (beq_trans d _ _ _ VDii), pinv_ext; auto|].
    assert (OM : orthonormal d d (mblk d m)) by (apply mblk_rot; auto).
    apply (comp_cancel d (pinv d (mblk d m))); [apply pinv_orth; auto|].
    apply (beq_trans d _ unit_block); [apply pinv_r, pinv_orth; auto|]. apply beq_sym, pinv_l; auto.
  - fold i. rewrite EP. cbn [bind]. rewrite ED. cbn [bind]. apply (FIN dT' Di (pinv d (mblk d m)) EDi WDi BD).
Qed.
End A.

(** The measurement holds between the neighbour's pose and the moved local pose. *)
Lemma joined_iff d id m Tn Ti W : rot_block d (mR m) -> rot_block d Ti -> rot_block d Tn ->
  (joined id d m Tn Ti W <-> beq d W (comp d (comp d Tn (if (mr2 m =? id)%N then mblk d m else pinv d (mblk d m))) (pinv d Ti))).
Proof.
  intros Rm [Oi _] [On _]. pose proof (proj1 (mblk_rot d m Rm)) as Om. unfold joined.
  assert (K : forall Z, beq d (comp d W Ti) Z <-> beq d W (comp d Z (pinv d Ti))).
  { intros Z. split; intros E.
    - apply (beq_trans d _ (comp d W (comp d Ti (pinv d Ti)))).
      { apply beq_sym. apply (beq_trans d _ (comp d W unit_block)); [apply comp_ext; [apply beq_refl|apply pinv_r; auto]|apply comp_unit_r]. }
      apply (beq_trans d _ (comp d (comp d W Ti) (pinv d Ti))); [apply beq_sym, comp_assoc|]. apply comp_ext; [auto|apply beq_refl].
    - apply (beq_trans d _ (comp d (comp d Z (pinv d Ti)) Ti)); [apply comp_ext; [auto|apply beq_refl]|].
      apply (beq_trans d _ (comp d Z (comp d (pinv d Ti) Ti))); [apply comp_assoc|].
      apply (beq_trans d _ (comp d Z unit_block)); [apply comp_ext; [apply beq_refl|apply pinv_l; auto]|apply comp_unit_r]. }
  destruct (mr2 m =? id)%N; rewrite link_comp.
  - apply K.
  - rewrite <- (K (comp d Tn (pinv d (mblk d m)))). split; intros E.
    + apply (beq_trans d _ (comp d (comp d W Ti) (comp d (mblk d m) (pinv d (mblk d m))))).
      { apply beq_sym. apply (beq_trans d _ (comp d (comp d W Ti) unit_block)); [apply comp_ext; [apply beq_refl|apply pinv_r; auto]|apply comp_unit_r]. }
      apply (beq_trans d _ (comp d (comp d (comp d W Ti) (mblk d m)) (pinv d (mblk d m)))); [apply beq_sym, comp_assoc|].
      apply comp_ext; [apply beq_sym; auto|apply beq_refl].
    + apply beq_sym. apply (beq_trans d _ (comp d (comp d Tn (pinv d (mblk d m))) (mblk d m))); [apply comp_ext; [auto|apply beq_refl]|].
      apply (beq_trans d _ (comp d Tn (comp d (pinv d (mblk d m)) (mblk d m)))); [apply comp_assoc|].
      apply (beq_trans d _ (comp d Tn unit_block)); [apply comp_ext; [apply beq_refl|apply pinv_l; auto]|apply comp_unit_r].
Qed.

Lemma shared_facts a m : AInv a -> In m (pg_shared (a_pg a)) ->
  ids_ok m /\ is_shared (a_id a) m = true /\ sized (p_d (a_params a)) (p_d (a_params a)) (mR m) /\ sized (p_d (a_params a)) 1 (mt m) /\
  (N.to_nat (u32 (if (mr2 m =? a_id a)%N then mp2 m else mp1 m)) < num_poses a)%nat /\
  u32 (if (mr2 m =? a_id a)%N then mp2 m else mp1 m) = frame_id (own_pose (a_id a) m).
Proof.
  intros I H. destruct (own_pose_in a m I H) as (O1 & O2 & O3 & O4). split; auto. split; auto.
  assert (Hin : In m (measurements (a_pg a))) by (unfold measurements; rewrite !in_app_iff; auto).
  pose proof (wf_dims _ (iv_pg _ I) _ Hin) as D. unfold dims_ok in D. rewrite !andb_true_iff, !Nat.eqb_eq, (iv_d _ I) in D.
  split; [split; tauto|]. split; [split; tauto|].
  assert (E : u32 (if (mr2 m =? a_id a)%N then mp2 m else mp1 m) = frame_id (own_pose (a_id a) m)).
  { unfold own_pose in *. unfold is_shared in O4. destruct O3 as (A & B & C & D').
    destruct (mr1 m =? a_id a)%N, (mr2 m =? a_id a)%N; cbn in O4; try discriminate; cbn [frame_id]; apply u32_small; lia. }
  split; auto. rewrite E. unfold num_poses. lia.
Qed.

Lemma arr_traj d n T : arr (S := R) d d n T -> traj d n T.
Proof. unfold arr, traj. auto. Qed.

Theorem c29_transform : forall x id p os a m nbr Tn T YL, areach x id p os a ->
  let d := p_d p in let i := N.to_nat (frame_id (own_pose id m)) in
  In m (pg_shared (a_pg a)) -> a_TLocal a = Some T -> a_YLift a = Some YL -> orthonormal (p_r p) d YL -> inverse_ok (x_minv x) d ->
  rot_block d (mR m) -> rot_block d (pblk T i) -> rot_block d Tn ->
  sized (p_r p) (d + 1) nbr -> (forall k j, (k < p_r p)%nat -> (j < d + 1)%nat -> nbr k j = lift d YL Tn k j) ->
  exists W, ag_computeNeighborTransform x a m nbr = Ok W /\ rigid d W /\
    joined id d m Tn (pblk T i) (pa_X W) /\
    forall W', joined id d m Tn (pblk T i) W' -> beq d W' (pa_X W).
Proof.
  intros x id p os a m nbr Tn T YL Ra d i Hin HT HY OY Hm Rm Ri Rn SN EN.
  pose proof (areach_inv _ _ _ _ _ Ra) as I. destruct (hist_all _ _ _ _ _ Ra) as (Hid & Hp & _).
  destruct (shared_facts a m I Hin) as (_ & _ & S1 & S2 & Hl & Ei).
  rewrite Hp in S1, S2. fold d in S1, S2.
  assert (SY : sized (p_r p) d YL). { destruct (iv_Y _ I _ HY) as [A B]. rewrite Hp in A, B. split; auto. }
  assert (TT : traj d (num_poses a) T). { destruct (iv_T _ I _ HT) as [_ A]. rewrite Hp in A. apply arr_traj; auto. }
  rewrite Ei in Hl. rewrite Hid in Hl, Ei. fold i in Hl.
  pose proof (transform_ok x a m nbr Tn T YL (num_poses a)) as TO. cbv zeta in TO. rewrite Hp, Hid, Ei in TO. fold d in TO. fold i in TO.
  destruct (TO HT TT HY SY OY Hm S1 S2 Rm SN EN Hl Ri) as (W & EW & WW & BW).
  exists W. split; auto. split; [|split].
  - apply wf1_rigid; auto. apply (rot_ext d _ _ (beq_sym d _ _ BW)). apply comp_rot; [|apply pinv_rot; auto]. apply comp_rot; auto.
    destruct (mr2 m =? id)%N; [apply mblk_rot; auto|apply pinv_rot, mblk_rot; auto].
  - apply (joined_iff d id m Tn (pblk T i)); auto.
  - intros W' J. apply (joined_iff d id m Tn (pblk T i)) in J; auto. apply (beq_trans d _ _ _ J). apply beq_sym; auto.
Qed.

(** ** Entering the global frame *)
Lemma initGlobal_X {S} `{Num S} (a : Agent S) TW a' : ag_initializeInGlobalFrame a TW = Ok a' ->
  exists YL T T', a_YLift a = Some YL /\ a_TLocal a = Some T /\ transform_all TW (num_poses a) T = Ok T' /\
    can_mul YL (pa_X T') = true /\ pa_setData (a_X a) (mmul YL (pa_X T')) = Ok (a_X a') /\ a_XInit a' = Some (a_X a').
Proof.
  unfold ag_initializeInGlobalFrame. intros E. apply bind_Ok in E. destruct E as (Y & E1 & E).
  destruct (a_YLift a) as [Y0|]; [|discriminate]. injection E1 as ->.
  apply check_Ok in E; destruct E as [_ E]. apply bind_Ok in E. destruct E as (RW & _ & E).
  apply bind_Ok in E. destruct E as (u & _ & E). rewrite endLoop_form in E.
  apply bind_Ok in E. destruct E as (T & ET & E). apply bind_Ok in E. destruct E as (T2 & E2 & E).
  apply require_Ok in E. destruct E as [C E]. apply bind_Ok in E. destruct E as (X & EX & E).
  apply bind_Ok in E. destruct E as (a1 & Ea1 & E). apply bind_Ok in E. destruct E as (a2 & Ea2 & E).
  exists Y, T, T2. split; auto.
  split. { change (a_TLocal (ag_clearNeighborPoses (sa_thread a false))) with (a_TLocal a) in ET. destruct (a_TLocal a); [|discriminate]. injection ET as ->. reflexivity. }
  split; [exact E2|]. split; [exact C|].
  cut (a_X a' = X /\ a_XInit a' = Some X). { intros [-> ->]. split; auto. }
  assert (Q1 : a_X a1 = X /\ a_XInit a1 = Some X).
  { destruct (robust _); [|injection Ea1 as <-; split; reflexivity].
    destruct (initRobust_form _ _ Ea1) as [-> _]. split; reflexivity. }
  assert (Q2 : a_X a2 = X /\ a_XInit a2 = Some X).
  { destruct (p_accel _); [|injection Ea2 as <-; auto]. destruct (initAccel_form _ _ Ea2) as (g & al & V & W & Z & ->). exact Q1. }
  destruct (a_thread a); [|injection E as <-; auto]. destruct (startLoop_form _ _ E) as [-> _]. exact Q2.
Qed.

Lemma lift_blk d r n (YL : Mx R) T X i a c : sized r d YL -> traj d n T -> pa_d X = d -> pa_X X = mmul YL (pa_X T) -> 
  pblk X i a c = lift d YL (pblk T i) a c.
Proof.
  intros [S1 S2] (R1 & D1 & N1 & M1 & C1) HX EX. unfold pblk, lift. rewrite HX, D1, EX. simpl. rewrite S2. reflexivity.
Qed.
Lemma lift_ext d r Y A B i j : beq d A B -> (i < r)%nat -> (j < d + 1)%nat -> lift d Y A i j = lift d Y B i j.
Proof. intros E Hi Hj. unfold lift. apply rsum_ext. intros k Hk. rewrite E by auto. reflexivity. Qed.

Lemma enter_core : forall (a : Agent R) TW a', AInv a -> ag_initializeInGlobalFrame a TW = Ok a' -> is_traj TW ->
  exists T YL, let p := a_params a in let d := p_d p in let n := num_poses a in a_TLocal a = Some T /\ a_YLift a = Some YL /\
    a_TLocal a' = Some T /\ a_XInit a' = Some (a_X a') /\ arr (p_r p) d n (a_X a') /\
    (pa_n TW = 1%nat -> forall i k j, (i < n)%nat -> (k < p_r p)%nat -> (j < d + 1)%nat ->
       pblk (a_X a') i k j = lift d YL (comp d (pa_X TW) (pblk T i)) k j) /\
    (orthonormal d d (pa_X TW) -> forall A B, orthonormal d d A ->
       beq d (rel d (comp d (pa_X TW) A) (comp d (pa_X TW) B)) (rel d A B)).
Proof.
  intros a TW a' I E HTW. remember (a_params a) as p eqn:Hp. symmetry in Hp.
  destruct (initGlobal_X a TW a' E) as (YL & T & T' & HY & HT & ET & C & ED & EI).
  destruct (initGlobal_form _ _ _ E) as (_ & _ & _ & _ & _ & _ & _ & _ & _ & _ & _ & _ & _ & _ & HT' & _).
  exists T, YL. cbv zeta. split; auto. split; auto. split; [congruence|]. split; auto.
  destruct (iv_T _ I _ HT) as [Hw AT]. rewrite Hp in AT. pose proof (arr_traj _ _ _ AT) as TT.
  destruct (iv_X _ I Hw) as [_ AX]. rewrite Hp in AX.
  destruct (pa_setData_arr _ _ _ _ _ _ AX ED) as [AX' EX].
  destruct (iv_Y _ I _ HY) as [Y1 Y2]. rewrite Hp in Y1, Y2.
  split; [exact AX'|]. split.
  - intros H1 i k j Hi Hk Hj.
    assert (HWd : pa_d TW = p_d p).
    { unfold ag_initializeInGlobalFrame in E. rewrite HY in E. cbn [bind] in E. apply check_Ok in E. destruct E as [E _]. apply Nat.eqb_eq in E.
      unfold dimension in E. rewrite (iv_d _ I), Hp in E. exact E. }
    assert (WW : wf1 (p_d p) TW). { unfold is_traj in HTW. rewrite HWd, H1 in HTW. destruct HTW as (A & B & D & F & G). rewrite Nat.mul_1_r in G. unfold wf1. auto. }
    destruct (transform_all_spec (p_d p) (num_poses a) TW T WW TT) as (T2 & E2 & TT2 & B2).
    assert (T2 = T') by congruence. subst T2.
    rewrite (lift_blk (p_d p) (p_r p) (num_poses a) YL T' (a_X a') i k j); [|split; auto|auto|apply AX'|auto].
    apply (lift_ext (p_d p) (p_r p)); auto.
  - intros OW A B HA. apply rel_move; auto.
Qed.

Theorem c30_enter : forall x id p os (a : Agent R) TW a', areach x id p os a -> ag_initializeInGlobalFrame a TW = Ok a' -> is_traj TW ->
  exists T YL, let d := p_d p in let n := num_poses a in a_TLocal a = Some T /\ a_YLift a = Some YL /\
    a_TLocal a' = Some T /\ a_XInit a' = Some (a_X a') /\ arr (p_r p) d n (a_X a') /\
    (pa_n TW = 1%nat -> forall i k j, (i < n)%nat -> (k < p_r p)%nat -> (j < d + 1)%nat ->
       pblk (a_X a') i k j = lift d YL (comp d (pa_X TW) (pblk T i)) k j) /\
    (orthonormal d d (pa_X TW) -> forall A B, orthonormal d d A ->
       beq d (rel d (comp d (pa_X TW) A) (comp d (pa_X TW) B)) (rel d A B)).
Proof.
  intros x id p os a TW a' Ra E HTW. destruct (hist_all _ _ _ _ _ Ra) as (_ & <- & _). apply enter_core; auto. eapply areach_inv; eauto.
Qed.

(** ** Zero residual *)
Lemma fro0 r c (M : Mx R) : mrows M = r -> mcols M = c -> (forall i j, (i < r)%nat -> (j < c)%nat -> M i j = 0) -> mfro2 M = 0.
Proof.
  intros <- <- Hz. unfold mfro2. apply rsum_zero'. intros i Hi. apply rsum_zero'. intros j Hj. rewrite (Hz i j) by auto. simpl. ring.
Qed.
Lemma linked_error d r (m : Meas R) (YL R1 t1 R2 t2 : Mx R) A B : sized d d (mR m) -> sized d 1 (mt m) -> link d m A B ->
  sized r d R1 -> sized r 1 t1 -> sized r d R2 -> sized r 1 t2 ->
  (forall i j, (i < r)%nat -> (j < d)%nat -> R1 i j = lift d YL A i j) -> (forall i, (i < r)%nat -> t1 i 0%nat = lift d YL A i d) ->
  (forall i j, (i < r)%nat -> (j < d)%nat -> R2 i j = lift d YL B i j) -> (forall i, (i < r)%nat -> t2 i 0%nat = lift d YL B i d) ->
  computeMeasurementError m R1 t1 R2 t2 = Ok 0.
Proof.
  intros [M1 M2] [N1 N2] L [A1 A2] [A3 A4] [B1 B2] [B3 B4] E1 E2 E3 E4. unfold computeMeasurementError, can_mul, same_size.
  cbn [mmul mrows mcols]. rewrite A1, A2, A3, A4, B1, B2, B3, B4, M1, M2, N1, N2, !Nat.eqb_refl. cbn [andb require].
  rewrite (fro0 r d (msub (mmul R1 (mR m)) R2)); [|simpl; auto|simpl; auto|].
  - rewrite (fro0 r 1 (msub (msub t2 t1) (mmul R1 (mt m)))); [|simpl; auto|simpl; auto|].
    + f_equal. simpl. ring.
    + intros i j Hi Hj. assert (j = 0)%nat by lia. subst j. transitivity (t2 i 0%nat - t1 i 0%nat - rsum d (fun k => R1 i k * mt m k 0%nat)); [simpl; rewrite A2; reflexivity|].
      rewrite E2, E4 by auto. rewrite (rsum_ext d _ (fun k => lift d YL A i k * mt m k 0%nat)) by (intros k Hk; rewrite E1 by auto; reflexivity).
      unfold lift. rewrite (rsum_ext d (fun k => YL i k * B k d) (fun k => YL i k * A k d + YL i k * rsum d (fun b => A k b * mt m b 0%nat))).
      2: { intros k Hk. destruct (L k Hk) as [_ ->]. ring. }
      rewrite rsum_add. pose proof (mul_assoc d d YL A (mt m) i 0%nat) as Q. unfold mul in Q. rewrite Q. ring.
  - intros i j Hi Hj. transitivity (rsum d (fun k => R1 i k * mR m k j) - R2 i j); [simpl; rewrite A2; reflexivity|].
    rewrite E3 by auto. rewrite (rsum_ext d _ (fun k => lift d YL A i k * mR m k j)) by (intros k Hk; rewrite E1 by auto; reflexivity).
    unfold lift. rewrite (rsum_ext d (fun k => YL i k * B k j) (fun k => YL i k * rsum d (fun b => A k b * mR m b j))).
    2: { intros k Hk. destruct (L k Hk) as [L1 _]. rewrite L1 by auto. reflexivity. }
    pose proof (mul_assoc d d YL A (mR m) i j) as Q. unfold mul in Q. rewrite Q. ring.
Qed.

Lemma arr_parts r d n (X : PoseArr R) i : arr r d n X -> (i < n)%nat ->
  exists Ri ti, pa_rot X i = Ok Ri /\ pa_trans X i = Ok ti /\ sized r d Ri /\ sized r 1 ti /\
    (forall k j, Ri k j = pblk X i k j) /\ (forall k, ti k 0%nat = pblk X i k d).
Proof.
  intros (R1 & D1 & N1 & M1 & C1) Hi. unfold pa_rot, pa_trans. rewrite N1, (proj2 (Nat.ltb_lt _ _) Hi). cbn [check]. rewrite R1, D1.
  do 2 eexists. split; [reflexivity|]. split; [reflexivity|]. split; [split; reflexivity|]. split; [split; reflexivity|].
  unfold pblk. rewrite D1. split; intros; simpl; f_equal; lia.
Qed.

(** An estimate consistent with a shared measurement leaves no residual. *)
Lemma residual_zero (a : Agent R) m nbr (YL : Mx R) A Tn c : let d := p_d (a_params a) in let r := p_r (a_params a) in
  let i := N.to_nat (frame_id (own_pose (a_id a) m)) in
  ids_ok m -> is_shared (a_id a) m = true -> sized d d (mR m) -> sized d 1 (mt m) -> a_state a = INITIALIZED ->
  arr r d (num_poses a) (a_X a) -> (i < num_poses a)%nat ->
  (forall k j, (k < r)%nat -> (j < d + 1)%nat -> pblk (a_X a) i k j = lift d YL A k j) ->
  sized r (d + 1) nbr -> (forall k j, (k < r)%nat -> (j < d + 1)%nat -> nbr k j = lift d YL Tn k j) ->
  (if (mr2 m =? a_id a)%N then link d m Tn A else link d m A Tn) ->
  mfind pose_ltb (other_pose (a_id a) m) c = Some nbr ->
  ag_residual (sa_ndict a c) m = Ok (Some 0).
Proof.
  intros d r i Hids Hsh S1 S2 Hs AX Hi VX [N1 N2] VN L Hf. unfold ag_residual.
  change (is_init (sa_ndict a c)) with (is_init a). unfold is_init. rewrite Hs. cbn [state_eqb negb].
  change (a_X (sa_ndict a c)) with (a_X a). change (a_id (sa_ndict a c)) with (a_id a). change (a_ndict (sa_ndict a c)) with c.
  destruct (arr_parts r d _ _ i AX Hi) as (Ri & ti & ER & Et & SR & St & VR & Vt).
  assert (P1 : sized r d (lp_rot nbr)) by (unfold lp_rot; split; simpl; lia).
  assert (P2 : sized r 1 (lp_trans nbr)) by (unfold lp_trans; split; simpl; lia).
  assert (Q1 : forall k j, (k < r)%nat -> (j < d)%nat -> lp_rot nbr k j = lift d YL Tn k j) by (intros k j Hk Hj; rewrite <- VN by (auto; lia); reflexivity).
  assert (Q2 : forall k, (k < r)%nat -> lp_trans nbr k 0%nat = lift d YL Tn k d).
  { intros k Hk. rewrite <- VN by (auto; lia). unfold lp_trans. simpl. f_equal. lia. }
  assert (U1 : forall k j, (k < r)%nat -> (j < d)%nat -> Ri k j = lift d YL A k j) by (intros k j Hk Hj; rewrite VR; apply VX; auto; lia).
  assert (U2 : forall k, (k < r)%nat -> ti k 0%nat = lift d YL A k d) by (intros k Hk; rewrite Vt; apply VX; auto; lia).
  assert (SQ : nsqrt (0 : R) = 0) by apply sqrt_0.
  unfold own_pose, other_pose, is_shared in *. destruct Hids as (I1 & I2 & I3 & I4).
  destruct (N.eqb_spec (mr1 m) (a_id a)) as [E1|E1]; destruct (N.eqb_spec (mr2 m) (a_id a)) as [E2|E2]; cbn in Hsh; try discriminate.
  - rewrite (proj2 (N.eqb_neq (mr1 m) (mr2 m))) by congruence. cbn [frame_id] in i. rewrite (u32_small (mp1 m)) by lia. fold i. rewrite ER. cbn [bind]. rewrite Et. cbn [bind].
    unfold pose_of. rewrite !u32_small by lia. rewrite Hf.
    rewrite (linked_error d r m YL Ri ti (lp_rot nbr) (lp_trans nbr) A Tn) by auto. cbn [bind]. rewrite SQ. reflexivity.
  - rewrite (proj2 (N.eqb_neq (mr1 m) (mr2 m))) by congruence. cbn [frame_id] in i. rewrite (u32_small (mp2 m)) by lia. fold i. rewrite ER. cbn [bind]. rewrite Et. cbn [bind].
    unfold pose_of. rewrite !u32_small by lia. rewrite Hf.
    rewrite (linked_error d r m YL (lp_rot nbr) (lp_trans nbr) Ri ti Tn A) by auto. cbn [bind]. rewrite SQ. reflexivity.
Qed.

(** Aligning along a measurement and entering the frame makes it exact. *)
Theorem c29_residual : forall x id p os a m nbr Tn T YL W a' c, areach x id p os a ->
  let d := p_d p in let i := N.to_nat (frame_id (own_pose id m)) in
  In m (pg_shared (a_pg a)) -> a_TLocal a = Some T -> a_YLift a = Some YL -> orthonormal (p_r p) d YL -> inverse_ok (x_minv x) d ->
  rot_block d (mR m) -> rot_block d (pblk T i) -> rot_block d Tn ->
  sized (p_r p) (d + 1) nbr -> (forall k j, (k < p_r p)%nat -> (j < d + 1)%nat -> nbr k j = lift d YL Tn k j) ->
  ag_computeNeighborTransform x a m nbr = Ok W -> ag_initializeInGlobalFrame a W = Ok a' ->
  mfind pose_ltb (other_pose id m) c = Some nbr ->
  ag_residual (sa_ndict a' c) m = Ok (Some 0).
Proof.
  intros x id p os a m nbr Tn T YL W a' c Ra d i Hin HT HY OY Hm Rm Ri Rn SN EN EW EG Hc.
  destruct (c29_transform x id p os a m nbr Tn T YL Ra Hin HT HY OY Hm Rm Ri Rn SN EN) as (W' & EW' & RW & J & _).
  assert (W' = W) by congruence. subst W'. fold d i in J, RW.
  destruct RW as (R1 & R2 & R3 & R4 & R5 & _). 
  assert (TW : is_traj W). { unfold is_traj, arr. rewrite R1, R2, R3, R4, R5, Nat.mul_1_r. auto. }
  destruct (c30_enter x id p os a W a' Ra EG TW) as (T2 & Y2 & HT2 & HY2 & _ & _ & AX & VX & _).
  assert (T2 = T) by congruence. assert (Y2 = YL) by congruence. subst T2 Y2. specialize (VX R3).
  pose proof (areach_inv _ _ _ _ _ Ra) as I. destruct (hist_all _ _ _ _ _ Ra) as (Hid & Hp & _).
  destruct (initGlobal_form _ _ _ EG) as (G1 & G2 & _ & G3 & _ & _ & _ & _ & _ & _ & _ & _ & _ & _ & _ & _ & _ & _ & _ & _ & G4).
  destruct (shared_facts a m I Hin) as (F1 & F2 & F3 & F4 & F5 & F6). rewrite F6 in F5.
  assert (NP : num_poses a' = num_poses a). { unfold num_poses. f_equal. apply (weq_gsame _ _ (iv_pg _ I)) in G3. apply G3. }
  rewrite Hid in F2, F5, F6. rewrite Hp in F3, F4.
  apply (residual_zero a' m nbr YL (comp d (pa_X W) (pblk T i)) Tn c); rewrite ?G1, ?G2, ?Hid, ?Hp, ?NP; auto.
Qed.

(** ** initialize() *)

Lemma local_used (x : Ext R) ls a a0 T : local_trajectory x ls a = Ok (a0, T) ->
  match p_init (a_params a) with
  | InitOdometry => odometryInitialization (pg_odom (a_pg a)) None = Ok T
  | InitChordal => ls_chordal ls (localMeasurements (a_pg a)) = Ok T
  | InitGNC => exists TO ms, odometryInitialization (pg_odom (a_pg a)) None = Ok TO /\
      solveRobustPGO (x_mudiv x) (ls_solve ls TO) (localMeasurements (a_pg a)) init_gnc_params = Ok (T, ms)
  end.
Proof.
  unfold local_trajectory. destruct (p_init (a_params a)); intros E; apply bind_Ok in E; destruct E as (T1 & E1 & E).
  - injection E as _ <-. auto.
  - injection E as _ <-. auto.
  - apply bind_Ok in E. destruct E as ([T2 ms] & E2 & E). apply bind_Ok in E. destruct E as (a1 & _ & E). injection E as _ <-. exists T1, ms. auto.
Qed.

Lemma to_first_frame_len (x : Ext R) d n T T' : to_first_frame x d n T = Ok T' -> (0 < n)%nat -> (n <= pa_n T)%nat.
Proof.
  unfold to_first_frame. intros E Hn. apply bind_Ok in E. destruct E as (N0 & _ & E). apply bind_Ok in E. destruct E as (P0 & _ & E).
  apply bind_Ok in E. destruct E as (Tw & _ & E). destruct n as [|n]; [lia|]. rewrite seq_S, foldM_app in E. apply bind_Ok in E. destruct E as (T1 & _ & E).
  cbn [foldM] in E. apply bind_Ok in E. destruct E as (T2 & E & _). cbn [Nat.add] in E. apply bind_Ok in E. destruct E as (P & E & _).
  unfold pa_pose in E. apply check_Ok in E. destruct E as [E _]. apply Nat.ltb_lt in E. lia.
Qed.

Lemma to_first_frame_traj (x : Ext R) d n T T' : to_first_frame x d n T = Ok T' -> traj d n T'.
Proof.
  unfold to_first_frame. intros E. destruct (pa_new_traj d n) as (N0 & EN & TN). rewrite EN in E. cbn [bind] in E.
  apply bind_Ok in E. destruct E as (P0 & _ & E). apply bind_Ok in E. destruct E as (Tw & _ & E).
  clear EN. revert N0 TN E. generalize (seq 0 n). intros l. induction l as [|k l IH]; intros N0 TN E.
  - cbn in E. injection E as <-. exact TN.
  - cbn [foldM] in E. apply bind_Ok in E. destruct E as (N1 & E1 & E).
    do 4 (apply bind_Ok in E1; destruct E1 as (? & _ & E1)). apply set_pose_spec in E1. destruct E1 as ((A & B & C & D & F) & _).
    eapply (IH N1); eauto. destruct TN as (G1 & G2 & G3 & G4 & G5). unfold traj. rewrite <- A, <- B, <- C, <- D, <- F. auto.
Qed.

Lemma identity_blk d : exists J, pose_identity d = Ok J /\ is_traj J /\ pa_n J = 1%nat /\ pa_d J = d /\
  forall i j, (i < d)%nat -> (j < d + 1)%nat -> pa_X J i j = unit_block i j.
Proof.
  destruct (blk_id d) as (J & EJ & W & B). exists J. split; [exact EJ|]. destruct W as (A1 & A2 & A3 & A4 & A5).
  split; [unfold is_traj, arr; rewrite A2, A3; repeat split; auto; lia|]. split; [exact A3|]. split; [exact A2|exact B].
Qed.

Theorem c30_local : forall x id p os (a : Agent R) ls TI a', areach x id p os a -> aop_ok (AInit ls TI) ->
  ag_initialize x ls a TI = Ok a' -> a_state a = WAIT_FOR_DATA -> a_state a' <> WAIT_FOR_DATA -> inverse_ok (x_minv x) (p_d p) ->
  exists T T', let d := p_d p in let n := num_poses a in
    used_trajectory x ls a TI T /\ (n <= pa_n T)%nat /\ a_TLocal a' = Some T' /\ traj d n T' /\
    (is_traj T -> rot_block d (pblk T 0) ->
       beq d (pblk T' 0) unit_block /\
       (forall i, (i < n)%nat -> beq d (pblk T' i) (rel d (pblk T 0) (pblk T i))) /\
       (forall i j, (i < n)%nat -> (j < n)%nat -> rot_block d (pblk T i) ->
          beq d (rel d (pblk T' i) (pblk T' j)) (rel d (pblk T i) (pblk T j)))) /\
    (a_state a' = INITIALIZED -> exists YL, a_YLift a = Some YL /\
       forall i k j, (i < n)%nat -> (k < p_r p)%nat -> (j < d + 1)%nat -> pblk (a_X a') i k j = lift d YL (pblk T' i) k j).
Proof.
  intros x id p os a ls TI a' Ra Hok E Hs Hs' Hm. pose proof (areach_inv _ _ _ _ _ Ra) as I. destruct (hist_all _ _ _ _ _ Ra) as (Hid & Hp & _).
  destruct (initialize_cases _ _ _ _ _ E I) as [->|[[-> _]|(_ & I' & _ & Hn & a0 & T & T' & a1 & W0 & F0 & U & Hd & ET & HT' & I1 & S1 & (X & F1) & U2)]]; [contradiction|contradiction|].
  exists T, T'. cbv zeta. assert (Hn' : (0 < num_poses a)%nat) by (unfold num_poses; lia).
  assert (Dd : dimension a = p_d p) by (unfold dimension; rewrite (iv_d _ I), Hp; reflexivity). rewrite Dd in *.
  pose proof (to_first_frame_len _ _ _ _ _ ET Hn') as Hl.
  split. { destruct U as [(U1 & U3 & _)|[U U3]]; [left; unfold fits; rewrite Hp; auto|right]. split; [unfold fits; rewrite Hp; auto|].
    apply local_used in U. exact U. }
  split; auto. split; auto. pose proof (to_first_frame_traj _ _ _ _ _ ET) as TT'.
  split; [exact TT'|]. split.
  - intros HTt R0. unfold is_traj in HTt. rewrite Hd in HTt. apply arr_traj in HTt.
    destruct (to_first_frame_spec x (p_d p) (num_poses a) T Hm Hn' Hl HTt R0) as (T2 & E2 & TT & B).
    assert (T2 = T') by congruence. subst T2. split; [|split; [exact B|]].
    + apply (beq_trans _ _ _ _ (B 0%nat Hn')). apply pinv_l. apply R0.
    + intros i j Hi Hj Ri. apply (beq_trans _ _ (rel (p_d p) (comp (p_d p) (pinv (p_d p) (pblk T 0)) (pblk T i)) (comp (p_d p) (pinv (p_d p) (pblk T 0)) (pblk T j)))).
      * apply rel_ext; apply B; auto.
      * apply rel_move; [apply pinv_orth, R0|apply Ri].
  - intros Hi. destruct U2 as [(b & Hb)|(J & a2 & b & EJ & EG & Hb)].
    + exfalso. rewrite Hb in Hi. change (a_state (sa_thread a1 b)) with (a_state a1) in Hi. congruence.
    + destruct (identity_blk (p_d p)) as (J' & EJ' & HJ & J1 & J2 & VJ). rewrite Hp in EJ. assert (J' = J) by congruence. subst J'.
      assert (P1 : a_params a1 = p) by (rewrite F1, F0; exact Hp).
      assert (Y1 : a_YLift a1 = a_YLift a) by (rewrite F1, F0; reflexivity).
      assert (N1 : num_poses a1 = num_poses a). { rewrite F1. unfold num_poses. change (pg_n (a_pg (sa_state (sa_X (sa_TLocal a0 (Some T')) X) WAIT_FOR_INITIALIZATION))) with (pg_n (a_pg a0)). rewrite (weq_n _ _ W0). reflexivity. }
      assert (T1 : a_TLocal a1 = Some T') by (rewrite F1; reflexivity).
      destruct (enter_core a1 J a2 I1 EG HJ) as (T2 & YL & A1 & A2 & _ & _ & _ & A3 & _). rewrite P1, N1 in A3. rewrite Y1 in A2.
      assert (T2 = T') by congruence. subst T2. exists YL. split; auto. intros i k j H1 H2 H3.
      rewrite Hb. change (a_X (sa_thread a2 b)) with (a_X a2). rewrite (A3 J1 i k j H1 H2 H3). apply (lift_ext (p_d p) (p_r p)); auto.
      apply (beq_trans _ _ (comp (p_d p) unit_block (pblk T' i))); [apply comp_ext; [exact VJ|apply beq_refl]|apply comp_unit_l].
Qed.
