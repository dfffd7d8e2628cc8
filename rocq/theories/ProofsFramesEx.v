(** Example agents over the reals for the frame properties. *)
From Coq Require Import List NArith ZArith Bool Arith Lia Reals Lra.
From Verif Require Import Base SMap Num RSum Det ModelTypes ModelPoseGraph ModelProblem ModelRobust ModelPoses ModelSolver ModelAgent
  SpecPoseGraph SpecCost SpecSolver SpecAgent SpecFrames MatR ProofsPoseGraph ProofsSolver ProofsPoses ProofsOdom ProofsFrames ProofsFrames2 ProofsResidual ProofsFrames3
  ProofsAgent ProofsAgent2 ProofsAgent3 ProofsAgent4.
Import ListNotations.
Local Open Scope res_scope.
Local Open Scope R_scope.

(** Inverse of a homogeneous matrix with orthogonal rotation part. *)
Definition rinv (M : Mx R) : Mx R :=
  let d := (mrows M - 1)%nat in
  mkMx (mrows M) (mcols M) (fun i j =>
    if (i <? d)%nat then (if (j <? d)%nat then M j i else - rsum d (fun k => M k i * M k d)) else if (i =? j)%nat then 1 else 0).

Lemma rinv_ok d : inverse_ok rinv d.
Proof.
  intros p (A1 & A2 & A3 & A4 & A5 & O & D) A [S1 S2] EA.
  assert (Er : (mrows A - 1 = d)%nat) by lia.
  assert (O2 : orthonormal d d (fun i j => pa_X p j i)) by (apply orth_square; auto).
  split; [exact S1|]. split; [exact S2|]. intros i j Hi Hj. unfold rinv. cbn [Num.mat]. rewrite Er.
  assert (X : forall n f, rsum (n + 1) f = rsum n f + f n) by (intros; rewrite Nat.add_1_r; apply rsum_S).
  assert (HA : forall i j, (i < d)%nat -> (j < d + 1)%nat -> A i j = pa_X p i j).
  { intros a b Ha Hb. rewrite EA by lia. unfold hom. destruct (Nat.ltb_spec a d); [reflexivity|lia]. }
  assert (HL : forall j, (j < d + 1)%nat -> A d j = if (d =? j)%nat then 1 else 0).
  { intros b Hb. rewrite EA by lia. unfold hom. rewrite Nat.ltb_irrefl. reflexivity. }
  split.
  - rewrite X. rewrite Nat.ltb_irrefl.
    destruct (Nat.ltb_spec j d) as [Lj|Lj].
    + rewrite (rsum_ext d _ (fun k => A i k * A j k)).
      2:{ intros k Hk. destruct (Nat.ltb_spec k d); [reflexivity|lia]. }
      destruct (Nat.eqb_spec d j); [lia|]. rewrite Rmult_0_r, Rplus_0_r.
      destruct (Nat.eq_dec i d) as [->|Ni].
      * rewrite rsum_zero'; [destruct (Nat.eqb_spec d j); [lia|reflexivity]|]. intros k Hk. rewrite HL by lia. destruct (Nat.eqb_spec d k); [lia|ring].
      * rewrite <- (O2 i j) by lia. apply rsum_ext. intros k Hk. rewrite !HA by lia. reflexivity.
    + assert (j = d) by lia. subst j. rewrite Nat.eqb_refl, Rmult_1_r.
      rewrite (rsum_ext d _ (fun k => - rsum d (fun l => A i k * (A l k * A l d)))).
      2:{ intros k Hk. destruct (Nat.ltb_spec k d); [|lia]. rewrite rsum_scal. ring. }
      rewrite rsum_opp, rsum_swap. destruct (Nat.eq_dec i d) as [->|Ni].
      * rewrite rsum_zero'. { rewrite HL, Nat.eqb_refl by lia. lra. }
        intros l Hl. apply rsum_zero'. intros k Hk. rewrite HL by lia. destruct (Nat.eqb_spec d k); [lia|ring].
      * rewrite (rsum_ext d _ (fun l => if (i =? l)%nat then A l d else 0)).
        { rewrite rsum_delta' by lia. destruct (Nat.eqb_spec i d); [lia|lra]. }
        intros l Hl. transitivity (rsum d (fun k => (A i k * A l k) * A l d)); [apply rsum_ext; intros; ring|]. rewrite rsum_scal_r.
        transitivity ((if (i =? l)%nat then 1 else 0) * A l d); [|destruct (i =? l)%nat; ring]. f_equal.
        rewrite <- (O2 i l) by lia. apply rsum_ext. intros k Hk. rewrite !HA by lia. reflexivity.
  - rewrite X. rewrite Nat.ltb_irrefl. destruct (Nat.ltb_spec i d) as [Li|Li].
    + rewrite (rsum_ext d _ (fun k => A k i * A k j)).
      2:{ intros k Hk. destruct (Nat.ltb_spec k d); [reflexivity|lia]. }
      rewrite HL by lia. destruct (Nat.eqb_spec d j) as [<-|Nj].
      * destruct (Nat.eqb_spec i d); [lia|]. lra.
      * rewrite Rmult_0_r, Rplus_0_r, <- (O i j) by lia. apply rsum_ext. intros k Hk. rewrite !HA by lia. reflexivity.
    + assert (i = d) by lia. subst i. rewrite Nat.eqb_refl, HL by lia.
      rewrite rsum_zero'; [lra|]. intros k Hk. destruct (Nat.eqb_spec d k); [lia|ring].
Qed.

Definition rx : Ext R := mkExt (fun M => (M, mident (mrows M))) (fun A => det (mrows A) A) (fun M => (M, mident (mcols M)))
  rinv Rdiv (fun d r => mkMx r d (fun i j => if (i =? j)%nat then 1 else 0)) 1.
Lemma rx_det d : det_ok (x_det rx) d.
Proof. intros A [H _]. cbn. rewrite H. reflexivity. Qed.

(** A rotation is its own decomposition. *)
Lemma svd_rot r d (Y : nat -> nat -> R) X n : (forall i, (i < n)%nat -> orthonormal d d (seen r Y (pblk X i))) -> svds_ok rx r d Y X n.
Proof.
  intros HO i M Hi [S1 S2] EM. unfold svd_at, is_svd. cbn [fst snd rx x_svd_full mident mrows mcols Num.mat].
  rewrite S1, S2. repeat (split; [reflexivity|]). split; [|split].
  - apply (orth_ext d d (seen r Y (pblk X i))); auto. intros ? ? ? ?. symmetry. apply EM; auto.
  - intros b c Hb Hc. cbn. transitivity (rsum d (fun a => if (b =? a)%nat then (if (a =? c)%nat then 1 else 0) else 0)).
    { apply rsum_ext. intros a _. rewrite (Nat.eqb_sym b a). destruct (a =? b)%nat, (a =? c)%nat; ring. }
    apply (rsum_delta' d b (fun a => if (a =? c)%nat then 1 else 0)); auto.
  - exists (fun _ => 1). split; [intros; lra|]. split; [intros; lra|]. intros a b Ha Hb.
    transitivity (rsum d (fun l => if (b =? l)%nat then M a l else 0)); [symmetry; apply (rsum_delta' d b (fun l => M a l)); auto|].
    apply rsum_ext. intros l _. cbn. destruct (b =? l)%nat; ring.
Qed.

Definition rows (r c : nat) (l : list (list R)) : Mx R := mkMx r c (fun i j => nth j (nth i l []) 0).
Definition rp (multi : bool) : AgentParams R :=
  mkAP 2 3 2 false InitOdometry multi false 3 (mkRobustParams L2 20 5 2 1 3 10) 1 1 2 0 1 10 0 false.
Definition rls : LocalSolvers R := mkLS (fun _ => Abort) (fun _ _ => Abort).
(** A quarter turn. *)
Definition turn : list (list R) := [[0; -1]; [1; 0]].
Definition rm_odom (id : N) : Meas R := mkMeas id id 0 1 (rows 2 2 turn) (rows 2 1 [[1]; [0]]) 1 1 true 1.
Definition rm_in : Meas R := mkMeas 0 1 4 1 (rows 2 2 turn) (rows 2 1 [[1]; [2]]) 1 1 false 1.
Definition rm_out : Meas R := mkMeas 1 0 0 6 (rows 2 2 turn) (rows 2 1 [[3]; [1]]) 1 1 false 1.
Definition rT : PoseArr R := mkPA 2 2 2 (rows 2 6 [[0; -1; 5; 1; 0; 7]; [1; 0; 1; 0; 1; 2]]).
Definition rY : Mx R := rows 3 2 [[0; 1]; [0; 0]; [1; 0]].
Definition rPa : Mx R := rows 2 3 [[0; 1; 4]; [-1; 0; 1]].
Definition rTn : Mx R := rows 2 3 [[0; -1; 3]; [1; 0; 4]].

Definition waiting : list (aop R) := [AAdd (rm_odom 1); AAdd rm_in; AAdd rm_out; ASetLift rY; AInit rls (Some rT)].
Definition placed : list (aop R) := [AAdd (rm_odom 1); ASetLift rY; AInit rls (Some rT); ASetX (mmul rY (pa_X rT)); ASetAnchor (mmul rY rPa)].
Definition rrun multi os : res (Agent R) := do a0 <- newAgent rx 1 (rp multi); ag_run rx a0 os.

Lemma rrun_reach multi os (P : Agent R -> Prop) :
  match rrun multi os with Ok a => P a | _ => False end -> Forall aop_ok os -> exists a, areach rx 1 (rp multi) os a /\ P a.
Proof.
  unfold rrun, areach. intros T F. destruct (newAgent rx 1 (rp multi)) as [a0| |]; cbn [bind] in *; try contradiction.
  destruct (ag_run rx a0 os) as [a| |]; try contradiction. exists a. auto.
Qed.

Lemma waiting_ok : Forall aop_ok waiting.
Proof.
  unfold waiting. repeat apply Forall_cons; try apply Forall_nil; try (repeat split; reflexivity).
  split; [intros T' [= <-]; repeat split|]. split; intros; discriminate.
Qed.
Lemma waiting_runs : match rrun true waiting with Ok a => a_state a = WAIT_FOR_INITIALIZATION /\ num_poses a = 2%nat | _ => False end.
Proof. vm_compute. auto. Qed.

Lemma waiting_facts : exists a, areach rx 1 (rp true) waiting a /\
  a_state a = WAIT_FOR_INITIALIZATION /\ num_poses a = 2%nat /\ a_YLift a = Some rY /\ pg_shared (a_pg a) = [rm_in; rm_out].
Proof. apply rrun_reach; [|apply waiting_ok]. vm_compute. auto. Qed.

Lemma placed_ok : Forall aop_ok placed.
Proof.
  unfold placed. repeat apply Forall_cons; try apply Forall_nil; try (repeat split; reflexivity); try exact I.
  split; [intros T' [= <-]; repeat split|]. split; intros; discriminate.
Qed.
Lemma placed_facts : exists a, areach rx 1 (rp false) placed a /\
  a_state a = INITIALIZED /\ num_poses a = 2%nat /\ a_anchor a = Some (mmul rY rPa) /\ a_X a = mkPA 3 2 2 (mmul rY (pa_X rT)).
Proof. apply rrun_reach; [|apply placed_ok]. vm_compute. auto. Qed.

Lemma orth2 A : A 0%nat 0%nat = A 1%nat 1%nat -> A 0%nat 1%nat = - A 1%nat 0%nat -> sq (A 0%nat 0%nat) + sq (A 1%nat 0%nat) = 1 -> rot_block 2 A.
Proof.
  unfold sq. intros H1 H2 H3. split.
  - intros b c Hb Hc. destruct b as [|[|b]]; [| |lia]; (destruct c as [|[|c]]; [| |lia]); cbn; rewrite ?H2, <- ?H1; lra.
  - cbn. unfold minor, skip. cbn. rewrite ?H2, <- ?H1. lra.
Qed.
Lemma rT_rot i : (i < 2)%nat -> rot_block 2 (pblk rT i).
Proof. intros Hi. destruct i as [|[|i]]; [| |lia]; apply orth2; unfold pblk, sq; cbn; lra. Qed.
Lemma rPa_rot : rot_block 2 rPa.
Proof. apply orth2; unfold sq; cbn; lra. Qed.
Lemma rTn_rot : rot_block 2 rTn.
Proof. apply orth2; unfold sq; cbn; lra. Qed.
Lemma turn_rot : rot_block 2 (rows 2 2 turn).
Proof. apply orth2; unfold sq; cbn; lra. Qed.
Lemma rY_orth : orthonormal 3 2 rY.
Proof. intros b c Hb Hc. destruct b as [|[|b]]; [| |lia]; (destruct c as [|[|c]]; [| |lia]); cbn; lra. Qed.

Lemma waiting_local : exists a T, areach rx 1 (rp true) waiting a /\ a_state a = WAIT_FOR_INITIALIZATION /\
  num_poses a = 2%nat /\ a_YLift a = Some rY /\ pg_shared (a_pg a) = [rm_in; rm_out] /\ a_TLocal a = Some T /\
  beq 2 (pblk T 0) unit_block /\ beq 2 (pblk T 1) (rel 2 (pblk rT 0) (pblk rT 1)) /\
  rot_block 2 (pblk T 0) /\ rot_block 2 (pblk T 1).
Proof.
  destruct waiting_facts as (a & Ra & Hs & Hn & HY & HS).
  pose proof Ra as Ra'. change waiting with ([AAdd (rm_odom 1); AAdd rm_in; AAdd rm_out; ASetLift rY] ++ [AInit rls (Some rT)]) in Ra'.
  destruct (areach_snoc _ _ _ _ _ _ Ra') as (a0 & R0 & E & Ok0 & _).
  assert (S0 : a_state a0 = WAIT_FOR_DATA).
  { destruct R0 as [R0 _]. revert R0. set (f := do a1 <- _; _).
    assert (V : match f with Ok a1 => a_state a1 = WAIT_FOR_DATA | _ => False end) by (vm_compute; auto). intros R0. rewrite R0 in V. exact V. }
  destruct (c30_local rx 1 (rp true) _ a0 rls (Some rT) a R0 Ok0 E S0 ltac:(congruence) (rinv_ok 2)) as (T & T' & U & L & HT & TT & B & _).
  assert (N0 : num_poses a0 = 2%nat).
  { destruct R0 as [R0 _]. revert R0. set (f := do a1 <- _; _).
    assert (V : match f with Ok a1 => num_poses a1 = 2%nat | _ => False end) by (vm_compute; auto). intros R0. rewrite R0 in V. exact V. }
  assert (T = rT). { destruct U as [[U _]|[U _]]; [congruence|]. exfalso. apply (U rT eq_refl). split; [|rewrite N0]; [|reflexivity].
    destruct (hist_all _ _ _ _ _ R0) as (_ & -> & _). reflexivity. }
  subst T. destruct B as (B0 & B1 & _); [repeat split|apply rT_rot; lia|]. rewrite N0 in B1.
  exists a, T'. repeat (split; [assumption|]). split; [exact (B1 1%nat ltac:(lia))|]. split.
  - apply (rot_ext 2 unit_block); [apply beq_sym; exact B0|]. apply orth2; unfold sq, unit_block; cbn; lra.
  - apply (rot_ext 2 (rel 2 (pblk rT 0) (pblk rT 1))); [apply beq_sym; exact (B1 1%nat ltac:(lia))|].
    apply comp_rot; [apply pinv_rot|]; apply rT_rot; lia.
Qed.

(** The neighbour's pose as it is sent: lifted. *)
Definition rnbr : Mx R := mmul rY rTn.
Lemma rnbr_lift : sized 3 3 rnbr /\ forall k j, (k < 3)%nat -> (j < 3)%nat -> rnbr k j = lift 2 rY rTn k j.
Proof. split; [split; reflexivity|]. intros k j _ _. reflexivity. Qed.

Lemma ex_transform : exists a T, areach rx 1 (rp true) waiting a /\ a_TLocal a = Some T /\
  (exists W, ag_computeNeighborTransform rx a rm_in rnbr = Ok W /\ rigid 2 W /\ joined 1 2 rm_in rTn (pblk T 1) (pa_X W)) /\
  (exists W, ag_computeNeighborTransform rx a rm_out rnbr = Ok W /\ rigid 2 W /\ joined 1 2 rm_out rTn (pblk T 0) (pa_X W)).
Proof.
  destruct waiting_local as (a & T & Ra & Hs & Hn & HY & HS & HT & B0 & B1 & R0 & R1). exists a, T. split; [exact Ra|]. split; [exact HT|].
  destruct rnbr_lift as [S E]. split.
  - destruct (c29_transform rx 1 (rp true) waiting a rm_in rnbr rTn T rY Ra) as (W & EW & RW & J & _); auto.
    + rewrite HS. left; reflexivity.
    + exact rY_orth.
    + exact (rinv_ok 2).
    + exact turn_rot.
    + exact rTn_rot.
    + exists W. auto.
  - destruct (c29_transform rx 1 (rp true) waiting a rm_out rnbr rTn T rY Ra) as (W & EW & RW & J & _); auto.
    + rewrite HS. right; left; reflexivity.
    + exact rY_orth.
    + exact (rinv_ok 2).
    + exact turn_rot.
    + exact rTn_rot.
    + exists W. auto.
Qed.

Lemma ex_global : exists a T, areach rx 1 (rp false) placed a /\ ag_getTrajectoryInGlobalFrame rx a = Ok (Some T) /\
  beq 2 (pblk T 0) (rel 2 rPa (pblk rT 0)) /\ beq 2 (pblk T 1) (rel 2 rPa (pblk rT 1)).
Proof.
  destruct placed_facts as (a & Ra & Hs & Hn & HA & HX).
  assert (EX : forall i k j, (i < 2)%nat -> (k < 3)%nat -> (j < 3)%nat -> pblk (a_X a) i k j = lift 2 rY (pblk rT i) k j) by (rewrite HX; reflexivity).
  destruct (c31_exact rx 1 (rp false) placed a (mmul rY rPa) rY (fun i => pblk rT i) rPa Ra Hs HA (rx_det 2)) as (T & ET & TT & V).
  - apply svd_rot. intros i Hi. rewrite Hn in Hi. cbn [rp p_r p_d]. apply (orth_ext 2 2 (rel 2 rPa (pblk rT i))).
    + intros k j Hk Hj. rewrite rel_entry by lia. destruct (Nat.eqb_spec j 2); [lia|]. rewrite Rminus_0_r. symmetry.
      rewrite (seen_ext 3 (mmul rY rPa) (pblk (a_X a) i) (lift 2 rY rPa) (lift 2 rY (pblk rT i))); [|reflexivity|intros; apply EX; auto; lia].
      apply seen_lift; [exact rY_orth|lia|lia].
    + apply comp_rot; [apply pinv_rot; exact rPa_rot|apply rT_rot; auto].
  - exact rY_orth.
  - exact rPa_rot.
  - rewrite Hn. exact rT_rot.
  - reflexivity.
  - rewrite Hn. exact EX.
  - exists a, T. rewrite Hn in V. split; [exact Ra|]. split; [exact ET|]. split; apply V; lia.
Qed.

(** The estimate's first translation is (5, 1): the exported second translation
    is not the documented one. *)
Lemma ex_local : exists a T, areach rx 1 (rp false) placed a /\ ag_getTrajectoryInLocalFrame rx a = Ok (Some (pa_X T)) /\
  traj 2 2 T /\ pblk T 0 0%nat 2%nat = 0 /\ pblk T 0 1%nat 2%nat = 0 /\ pblk T 1 0%nat 2%nat = 2 /\ pblk T 1 1%nat 2%nat = -7 /\
  rel 2 (pblk rT 0) (pblk rT 1) 0%nat 2%nat = 1 /\ rel 2 (pblk rT 0) (pblk rT 1) 1%nat 2%nat = -2.
Proof.
  destruct placed_facts as (a & Ra & Hs & Hn & HA & HX).
  assert (EX : forall i k j, (i < 2)%nat -> (k < 3)%nat -> (j < 3)%nat -> pblk (a_X a) i k j = lift 2 rY (pblk rT i) k j) by (rewrite HX; reflexivity).
  assert (SE : forall i k j, (i < 2)%nat -> (k < 2)%nat -> (j < 3)%nat -> seen 3 (pblk (a_X a) 0) (pblk (a_X a) i) k j = rsum 2 (fun l => pblk rT 0 l k * pblk rT i l j)).
  { intros i k j Hi Hk Hj.
    rewrite (seen_ext 3 (pblk (a_X a) 0) (pblk (a_X a) i) (lift 2 rY (pblk rT 0)) (lift 2 rY (pblk rT i))); [|intros; apply EX; lia|intros; apply EX; auto; lia].
    apply seen_lift; [exact rY_orth|lia|lia]. }
  destruct (c31_local rx 1 (rp false) placed a Ra Hs (rx_det 2)) as (T & ET & TT & _ & V & _ & _).
  - apply svd_rot. intros i Hi. rewrite Hn in Hi. cbn [rp p_r p_d]. apply (orth_ext 2 2 (rel 2 (pblk rT 0) (pblk rT i))).
    + intros k j Hk Hj. rewrite rel_entry by lia. destruct (Nat.eqb_spec j 2); [lia|]. rewrite Rminus_0_r. symmetry. apply SE; auto; lia.
    + apply comp_rot; [apply pinv_rot; apply rT_rot; lia|apply rT_rot; auto].
  - rewrite Hn in V, TT. cbn [rp p_r p_d] in V, TT. exists a, T. split; [exact Ra|]. split; [exact ET|]. split; [exact TT|].
    split; [rewrite V by lia; reflexivity|]. split; [rewrite V by lia; reflexivity|].
    split; [rewrite V by lia; cbn [Nat.eqb]; rewrite SE by lia; unfold pblk; cbn; lra|].
    split; [rewrite V by lia; cbn [Nat.eqb]; rewrite SE by lia; unfold pblk; cbn; lra|].
    split; (rewrite rel_entry by lia; unfold pblk; cbn; lra).
Qed.

(** The odometry edge of the placed agent: 8 from the rotations, 4 from the translations. *)
Lemma ex_residual : exists a, areach rx 1 (rp false) placed a /\ a_state a = INITIALIZED /\ In (rm_odom 1) (measurements (a_pg a)) /\
  ag_residual a (rm_odom 1) = Ok (Some (sqrt 12)).
Proof.
  assert (exists a, areach rx 1 (rp false) placed a /\ (a_state a = INITIALIZED /\ a_id a = 1%N /\ measurements (a_pg a) = [rm_odom 1] /\ a_X a = mkPA 3 2 2 (mmul rY (pa_X rT))))
    as (a & Ra & Hs & Hid & Hm & HX).
  { apply rrun_reach; [|apply placed_ok]. vm_compute. auto. }
  assert (Hin : In (rm_odom 1) (measurements (a_pg a))) by (rewrite Hm; left; reflexivity).
  exists a. split; [exact Ra|]. split; [exact Hs|]. split; [exact Hin|].
  rewrite (residual_value rx 1 (rp false) placed a (rm_odom 1) Ra Hs Hin). unfold known_pose. rewrite Hid, HX. cbn [robot_id frame_id rm_odom mr1 mr2 mp1 mp2 N.eqb Pos.eqb].
  do 3 f_equal. unfold edge_cost, pblk, sq, rY, rT, turn, rows. change (N.to_nat 1) with 1%nat. change (N.to_nat 0) with 0%nat. cbn. ring.
Qed.
