(** Example for C60: two measurements that agree. *)
From Coq Require Import List NArith ZArith Bool Arith Lia Reals Lra.
From Verif Require Import Base SMap Num RSum Det ModelTypes ModelPoseGraph ModelProblem ModelRobust ModelPoses ModelSolver ModelAgent ModelAlign
  SpecPoseGraph SpecCost SpecSolver SpecAgent SpecFrames SpecAlign MatR ProofsPoseGraph ProofsSolver ProofsPoses ProofsOdom ProofsFrames ProofsFrames2 ProofsResidual ProofsFrames3
  ProofsAgent ProofsAgent2 ProofsAgent3 ProofsAgent4 ProofsFramesEx ProofsGnc2 ProofsRun3 ProofsRun6 ProofsAngle ProofsAlign.
Import ListNotations.
Local Open Scope res_scope.
Local Open Scope R_scope.

(** Decomposes any multiple of a rotation of the plane. *)
Definition col_norm (M : Mx R) : R := sqrt (sq (M 0%nat 0%nat) + sq (M 1%nat 0%nat)).
Definition asvd (M : Mx R) : Mx R * Mx R := (mkMx (mrows M) (mcols M) (fun i j => M i j / col_norm M), mident (mcols M)).
Definition ax : Ext R := mkExt asvd (fun A => det (mrows A) A) asvd
  rinv ex_mudiv (fun d r => mkMx r d (fun i j => if (i =? j)%nat then 1 else 0)) (angular2ChordalSO3 sin (1 / 2)).

Lemma asvd_sized : svd_sized asvd 2.
Proof. intros M [H1 H2]. split; split; cbn; auto. Qed.
Lemma ax_det d : det_ok (x_det ax) d.
Proof. intros A [H _]. cbn. rewrite H. reflexivity. Qed.

Lemma asvd_at M (Q : nat -> nat -> R) s : rot_block 2 Q -> 0 < s -> sized 2 2 M -> (forall i j, (i < 2)%nat -> (j < 2)%nat -> M i j = s * Q i j) -> svd_at asvd 2 2 M.
Proof.
  intros [O _] Hs [S1 S2] EM.
  assert (EN : col_norm M = s).
  { unfold col_norm. rewrite !EM by lia. pose proof (O 0%nat 0%nat ltac:(lia) ltac:(lia)) as H. cbn in H. unfold sq.
    replace (s * Q 0%nat 0%nat * (s * Q 0%nat 0%nat) + s * Q 1%nat 0%nat * (s * Q 1%nat 0%nat)) with (s * s).
    - apply sqrt_square. lra.
    - transitivity (s * s * (0 + Q 0%nat 0%nat * Q 0%nat 0%nat + Q 1%nat 0%nat * Q 1%nat 0%nat)); [|ring].
      replace (0 + Q 0%nat 0%nat * Q 0%nat 0%nat + Q 1%nat 0%nat * Q 1%nat 0%nat) with 1 by lra. ring. }
  assert (EU : forall i j, (i < 2)%nat -> (j < 2)%nat -> M i j / col_norm M = Q i j).
  { intros i j Hi Hj. rewrite EN, EM by lia. field. lra. }
  unfold svd_at, is_svd. cbn [fst snd asvd mident mrows mcols Num.mat].
  rewrite S1, S2. repeat (split; [reflexivity|]). split; [|split].
  - apply (orth_ext 2 2 Q); auto. intros ? ? ? ?. symmetry. apply EU; auto.
  - intros b c Hb Hc. destruct b as [|[|b]]; [| |lia]; (destruct c as [|[|c]]; [| |lia]); cbn; lra.
  - exists (fun _ => s). split; [intros; lra|]. split; [intros; lra|]. intros a b Ha Hb.
    cbn [rsum]. rewrite EM by lia. rewrite !EU by lia. destruct b as [|[|b]]; [| |lia]; cbn; ring.
Qed.

(** The neighbour's two poses, placed so that both measurements ask for [rTn]. *)
Definition aTn (q : PoseID) : nat -> nat -> R :=
  if (frame_id q =? 4)%N then rows 2 3 [[0; 1; 3]; [-1; 0; 6]] else rows 2 3 [[-1; 0; 2]; [0; -1; 7]].
Definition adict : list (PoseID * Mx R) :=
  [(mkPoseID 0 4, mmul rY (rows 2 3 [[0; 1; 3]; [-1; 0; 6]])); (mkPoseID 0 6, mmul rY (rows 2 3 [[-1; 0; 2]; [0; -1; 7]]))].

Definition awaiting : list (aop R) :=
  [AAdd (rm_odom 1); AAdd rm_in; AAdd rm_out; ASetLift rY; AStatus (mkStatus 0 INITIALIZED 0 0 false 0)] ++ [AInit rls (Some rT)].
Lemma awaiting_ok : Forall aop_ok awaiting.
Proof.
  unfold awaiting. repeat apply Forall_cons; try apply Forall_nil; try (repeat split; reflexivity).
  split; [intros T' [= <-]; repeat split|]. split; intros; discriminate.
Qed.
Definition arun os : res (Agent R) := do a0 <- newAgent ax 1 (rp true); ag_run ax a0 os.
Lemma arun_reach os (P : Agent R -> Prop) :
  match arun os with Ok a => P a | _ => False end -> Forall aop_ok os -> exists a, areach ax 1 (rp true) os a /\ P a.
Proof.
  unfold arun, areach. intros T F. destruct (newAgent ax 1 (rp true)) as [a0| |]; cbn [bind] in *; try contradiction.
  destruct (ag_run ax a0 os) as [a| |]; try contradiction. exists a. auto.
Qed.

Lemma awaiting_facts : exists a, areach ax 1 (rp true) awaiting a /\
  a_state a = WAIT_FOR_INITIALIZATION /\ num_poses a = 2%nat /\ a_YLift a = Some rY /\ pg_shared (a_pg a) = [rm_in; rm_out] /\ nbr_ready a 0 = true /\ a_thread a = false.
Proof. apply arun_reach; [|apply awaiting_ok]. vm_compute. repeat split. Qed.

Lemma awaiting_local : exists a T, areach ax 1 (rp true) awaiting a /\ a_state a = WAIT_FOR_INITIALIZATION /\
  num_poses a = 2%nat /\ a_YLift a = Some rY /\ pg_shared (a_pg a) = [rm_in; rm_out] /\ nbr_ready a 0 = true /\ a_thread a = false /\ a_TLocal a = Some T /\
  beq 2 (pblk T 0) unit_block /\ beq 2 (pblk T 1) (rel 2 (pblk rT 0) (pblk rT 1)) /\
  rot_block 2 (pblk T 0) /\ rot_block 2 (pblk T 1).
Proof.
  destruct awaiting_facts as (a & Ra & Hs & Hn & HY & HS & HR & HH).
  destruct (areach_snoc _ _ _ _ _ _ Ra) as (a0 & R0 & E & Ok0 & _).
  assert (S0 : a_state a0 = WAIT_FOR_DATA).
  { destruct R0 as [R0 _]. revert R0. set (f := do a1 <- _; _).
    assert (V : match f with Ok a1 => a_state a1 = WAIT_FOR_DATA | _ => False end) by (vm_compute; auto). intros R0. rewrite R0 in V. exact V. }
  destruct (c30_local ax 1 (rp true) _ a0 rls (Some rT) a R0 Ok0 E S0 ltac:(congruence) (rinv_ok 2)) as (T & T' & U & L & HT & TT & B & _).
  assert (N0 : num_poses a0 = 2%nat).
  { destruct R0 as [R0 _]. revert R0. set (f := do a1 <- _; _).
    assert (V : match f with Ok a1 => num_poses a1 = 2%nat | _ => False end) by (vm_compute; auto). intros R0. rewrite R0 in V. exact V. }
  assert (T = rT). { destruct U as [[U _]|[U _]]; [congruence|]. exfalso. apply (U rT eq_refl). split; [|rewrite N0]; [|reflexivity].
    destruct (hist_all _ _ _ _ _ R0) as (_ & -> & _). reflexivity. }
  subst T. destruct B as (B0 & B1 & _); [repeat split|apply rT_rot; lia|]. rewrite N0 in B1.
  exists a, T'. repeat (split; [assumption|]). split; [exact (B1 1%nat ltac:(lia))|]. split.
  - apply (rot_ext 2 unit_block); [apply beq_sym; exact B0|]. apply orth2; unfold sq, unit_block; cbn; lra.
  - apply (rot_ext 2 (rel 2 (pblk rT 0) (pblk rT 1))); [apply beq_sym; exact (B1 1%nat ltac:(lia))|].
    apply comp_rot; [apply pinv_rot|]; apply rT_rot; lia.
Qed.

Definition aWs : list (Mx R) := [rTn; rTn].

Lemma aTn_rot q : rot_block 2 (aTn q).
Proof. unfold aTn. destruct (_ =? _)%N; apply orth2; unfold sq; cbn; lra. Qed.

Lemma ex_sent : sent 3 2 0 rY aTn adict.
Proof.
  intros q v Hq. destruct q as [qr qf]. cbn [robot_id] in Hq. subst qr. intros Hf.
  assert (K : (qf = 4%N /\ v = mmul rY (rows 2 3 [[0; 1; 3]; [-1; 0; 6]])) \/ (qf = 6%N /\ v = mmul rY (rows 2 3 [[-1; 0; 2]; [0; -1; 7]]))).
  { revert Hf. unfold adict. cbn [mfind]. unfold pose_ltb. cbn [robot_id frame_id]. rewrite N.ltb_irrefl, N.eqb_refl. cbn [orb andb].
    destruct (N.ltb_spec qf 4); [discriminate|]. destruct (N.ltb_spec 4 qf).
    - destruct (N.ltb_spec qf 6); [discriminate|]. destruct (N.ltb_spec 6 qf); [discriminate|]. intros [= <-]. right. split; [lia|reflexivity].
    - intros [= <-]. left. split; [lia|reflexivity]. }
  split; [apply aTn_rot|]. destruct K as [[-> ->]|[-> ->]]; (split; [split; reflexivity|]); intros i j _ _; reflexivity.
Qed.

Lemma ex_candidates T : beq 2 (pblk T 0) unit_block -> beq 2 (pblk T 1) (rel 2 (pblk rT 0) (pblk rT 1)) ->
  candidates 1 2 aTn T [rm_in; rm_out] aWs.
Proof.
  intros B0 B1. unfold candidates, aWs. constructor; [|constructor; [|constructor]].
  - change (link 2 rm_in (aTn (mkPoseID 0 4)) (comp 2 rTn (pblk T 1))). unfold link.
    pose proof (comp_ext 2 _ _ _ _ (beq_refl 2 rTn) B1) as K. intros i Hi. split; [intros j Hj|]; rewrite K by lia;
      (destruct i as [|[|i]]; [| |lia]); try (destruct j as [|[|j]]; [| |lia]); unfold rel, comp, pinv, pblk; cbn; lra.
  - change (link 2 rm_out (comp 2 rTn (pblk T 0)) (aTn (mkPoseID 0 6))). unfold link.
    pose proof (comp_ext 2 _ _ _ _ (beq_refl 2 rTn) B0) as K. set (C := comp 2 rTn (pblk T 0)) in *.
    intros i Hi. split; [intros j Hj|]; cbn [rsum]; rewrite !K by lia;
      (destruct i as [|[|i]]; [| |lia]); try (destruct j as [|[|j]]; [| |lia]); unfold comp, unit_block; cbn; lra.
Qed.

Lemma ex_averages : averages_ok asvd 2 aWs.
Proof.
  intros ws M Hl Hp HM EM. destruct ws as [|w1 [|w2 [|w3 ws]]]; try discriminate.
  apply (asvd_at M rTn (nsumL (fun w => w) [w1; w2])); auto using rTn_rot.
  intros i j Hi Hj. rewrite EM by auto. unfold wsum, aWs, nsumL. cbn. numr. ring.
Qed.

Lemma ex_two : exists a T P a', areach ax 1 (rp true) awaiting a /\ a_state a = WAIT_FOR_INITIALIZATION /\ receivable a 0 /\
  a_TLocal a = Some T /\ a_YLift a = Some rY /\ evidence 1 0 adict (pg_shared (a_pg a)) = [rm_in; rm_out] /\ msorted pose_ltb adict /\
  hears (x_minv ax) 1 0 3 2 (pg_shared (a_pg a)) rY T aTn adict /\ candidates 1 2 aTn T [rm_in; rm_out] aWs /\
  svd_sized (x_svd_full ax) 2 /\ averages_ok (x_svd_full ax) 2 aWs /\ det_ok (x_det ax) 2 /\ div_ok (x_mudiv ax) /\ div_zero_big (x_mudiv ax) /\
  ag_twoStage ax a 0 adict = Ok (Some P) /\ rigid 2 P /\ beq 2 (pa_X P) rTn /\
  ag_updateNeighborPoses ax a 0 adict = Ok a' /\ a_state a' = INITIALIZED /\
  ag_residual a' rm_in = Ok (Some 0) /\ ag_residual a' rm_out = Ok (Some 0).
Proof.
  destruct awaiting_local as (a & T & Ra & Hs & Hn & HY & HS & HR & HH & HT & B0 & B1 & R0 & R1).
  pose proof (areach_inv _ _ _ _ _ Ra) as I. destruct (hist_all _ _ _ _ _ Ra) as (Hid & Hp & _).
  assert (EV : evidence 1 0 adict (pg_shared (a_pg a)) = [rm_in; rm_out]) by (rewrite HS; reflexivity).
  assert (Hh : hears (x_minv ax) 1 0 3 2 (pg_shared (a_pg a)) rY T aTn adict).
  { split; [discriminate|]. split; [exact rY_orth|]. split; [exact (rinv_ok 2)|]. split; [exact ex_sent|]. rewrite EV.
    intros m [<-|[<-|[]]]; split; try exact turn_rot; [exact R1|exact R0]. }
  pose proof (ex_candidates T B0 B1) as Hc.
  assert (Hc' : candidates 1 2 aTn T (evidence 1 0 adict (pg_shared (a_pg a))) aWs) by (rewrite EV; exact Hc).
  destruct (two_consistent ax 1 (rp true) awaiting a 0 adict aTn T rY aWs Ra (or_introl eq_refl) HT HY Hh Hc' asvd_sized ex_averages (ax_det 2)
    (proj1 ex_mudiv_ok) (proj2 ex_mudiv_ok) rTn eq_refl) as (P & EP & RP & BP).
  { cbn. lia. } { rewrite EV. cbn. lia. } { intros W [<-|[<-|[]]]; apply beq_refl. }
  assert (EU : exists a', ag_updateNeighborPoses ax a 0 adict = Ok a').
  { unfold ag_updateNeighborPoses. rewrite Hid, HR. cbn [N.eqb negb check]. rewrite Hs. cbn [state_eqb]. rewrite EP. cbn [bind].
    destruct (initGlobal_total a P rY T I) as (a1 & E1 & _); auto.
    - congruence.
    - unfold robust. rewrite Hp. reflexivity.
    - rewrite Hp. apply rigid_wf. exact RP.
    - rewrite E1. cbn [bind]. destruct (is_init a1); [|eexists; reflexivity]. cbn [negb].
      destruct (initGlobal_inv _ _ _ I E1) as [I1 _]. pose proof (initGlobal_form _ _ _ E1) as F2. decompose [and] F2.
      assert (Pa : a_params a1 = rp true) by congruence.
      destruct (ProofsRun3.store_total a1 0 adict (a_ndict a1)) as (c & ->); [|eexists; reflexivity].
      intros kv Hk. rewrite Pa. destruct Hk as [<-|[<-|[]]]; repeat split. }
  destruct EU as (a' & EU).
  assert (KR : forall m, In m [rm_in; rm_out] -> ag_residual a' m = Ok (Some 0)).
  { intros m Hm. apply (update_residual ax 1 (rp true) awaiting a a' 0 adict Ra Hs HR EU aTn T rY P m); auto.
    - repeat constructor.
    - rewrite EV. exact Hm.
    - destruct Hm as [<-|[<-|[]]]; cbn [p_d rp].
      + inversion Hc as [|? ? ? ? J _]; subst. eapply joined_beq; [apply beq_sym; exact BP|exact J].
      + inversion Hc as [|? ? ? ? _ Hc2]; subst. inversion Hc2 as [|? ? ? ? J _]; subst. eapply joined_beq; [apply beq_sym; exact BP|exact J]. }
  assert (SI : a_state a' = INITIALIZED).
  { destruct (update_enters ax 1 (rp true) awaiting a a' 0 adict Ra Hs HR EU) as [[N0 _]|(P2 & T2 & Y2 & _ & HI & _)]; [congruence|exact HI]. }
  exists a, T, P, a'. split; [exact Ra|]. split; [exact Hs|]. split; [apply nbr_ready_iff; exact HR|]. split; [exact HT|]. split; [exact HY|].
  split; [exact EV|]. split; [repeat constructor|]. split; [exact Hh|]. split; [exact Hc|]. split; [exact asvd_sized|]. split; [exact ex_averages|].
  split; [exact (ax_det 2)|]. split; [exact (proj1 ex_mudiv_ok)|]. split; [exact (proj2 ex_mudiv_ok)|]. split; [exact EP|]. split; [exact RP|].
  split; [exact BP|]. split; [exact EU|]. split; [exact SI|]. split; apply KR; cbn; auto.
Qed.

Lemma ex_one : exists a T P, areach ax 1 (rp true) awaiting a /\ a_TLocal a = Some T /\
  hears (x_minv ax) 1 0 3 2 (pg_shared (a_pg a)) rY T aTn adict /\
  candidates 1 2 aTn T (evidence 1 0 adict (pg_shared (a_pg a))) aWs /\
  ag_oneStage ax (1 / 2) a 0 adict = Ok (Some P) /\ beq 2 (pa_X P) rTn.
Proof.
  destruct ex_two as (a & T & _ & _ & Ra & _ & _ & HT & HY & EV & _ & Hh & Hc & H1 & H2 & H3 & H4 & H5 & _).
  assert (Hc' : candidates 1 2 aTn T (evidence 1 0 adict (pg_shared (a_pg a))) aWs) by (rewrite EV; exact Hc).
  destruct (one_stage ax 1 (rp true) awaiting a 0 adict aTn T rY aWs (1 / 2) Ra (or_introl eq_refl) HT HY Hh Hc' ltac:(lra) H1 H2 H3 H4 H5) as (o & Eo & _ & _ & C).
  destruct (C rTn) as (P & -> & BP). { rewrite EV. cbn. lia. } { rewrite EV. cbn. lia. } { intros W [<-|[<-|[]]]; apply beq_refl. }
  exists a, T, P. auto 10.
Qed.

(** Two rotations of space half a radian apart are not within the threshold, closer ones are. *)
Lemma ex_angle : angle 3 (axis_rot 0 0 1 0) (axis_rot 0 0 1 (1 / 4)) (1 / 4) /\ rotation 3 (mkMx 3 3 (axis_rot 0 0 1 0)) /\ rotation 3 (mkMx 3 3 (axis_rot 0 0 1 (1 / 4))).
Proof.
  assert (R : forall t, rotation 3 (mkMx 3 3 (axis_rot 0 0 1 t))).
  { intros t. split; [reflexivity|]. split; [reflexivity|]. apply (turns_rot 3 t). right. split; [reflexivity|]. exists 0, 0, 1. split; [ring|reflexivity]. }
  split; [|split; apply R]. split; [pose proof PI_RGT_0; pose proof PI2_3_2; lra|].
  exists (axis_rot 0 0 1 (1 / 4)). split; [right; split; [reflexivity|exists 0, 0, 1; split; [ring|reflexivity]]|].
  intros i j Hi Hj. unfold axis_rot. rewrite cos_0, sin_0.
  destruct i as [|[|[|i]]]; [| | |lia]; (destruct j as [|[|[|j]]]; [| | |lia]); cbn; ring.
Qed.

(** The same statements with [receivable]. *)
Definition update_enters_top x id p os a a' k dict Ra Hs Hr := update_enters x id p os a a' k dict Ra Hs (proj2 (nbr_ready_iff a k) Hr).
Definition update_residual_top x id p os a a' k dict Ra Hs Hr := update_residual x id p os a a' k dict Ra Hs (proj2 (nbr_ready_iff a k) Hr).
