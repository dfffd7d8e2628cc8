(** Example agents for the log files. *)
From Coq Require Import List NArith ZArith Bool Arith Lia String QArith Reals Lra.
From Verif Require Import Base SMap Num RSum Det ModelTypes ModelPoseGraph ModelProblem ModelRobust ModelPoses ModelSolver ModelAgent ModelIO ModelLog
  SpecPoseGraph SpecCost SpecSolver SpecAgent SpecFrames SpecIO SpecLog MatR ProofsSolver ProofsIO ProofsAgent ProofsAgent2 ProofsAgent3 ProofsFrames ProofsFrames2 ProofsFrames3 ProofsFramesEx ProofsIO2 ProofsAgentEx ProofsIOEx ProofsQuat ProofsPoseGraph ProofsLog ProofsLog2.
Import ListNotations.
Local Open Scope string_scope.
Local Open Scope res_scope.

Definition qx_ext : Ext Q := mkExt (fun M => (M, mident (mrows M))) (fun A => 1%Q) (fun M => (M, mident (mcols M)))
  (fun M => M) Qdiv (fun d r => mident d) 1%Q.
Definition qp (multi : bool) : AgentParams Q :=
  mkAP 3 3 2 false InitOdometry multi false 3 (mkRobustParams L2 20 5 2 1 3 10)%Q 1 1 2 0 1 10 0 true.
Definition qls : LocalSolvers Q := mkLS (fun _ => Abort) (fun _ _ => Abort).
Definition qmx (r c : nat) (l : list (list Q)) : Mx Q := mlit r c l.
Definition qodo (k i : N) : Meas Q := mkMeas k k i (i + 1) (mident 3) (qmx 3 1 [[1]; [0]; [0]]%Q) 1%Q 2%Q true 1%Q.
Definition qT (u : Q) : PoseArr Q := mkPA 3 3 2 (qmx 3 8 [[1; 0; 0; 0; 1; 0; 0; u]; [0; 1; 0; 0; 0; 1; 0; 2]; [0; 0; 1; 0; 0; 0; 1; 3]]%Q).
Definition qanchor : Mx Q := qmx 3 4 [[1; 0; 0; 0]; [0; 1; 0; 0]; [0; 0; 1; 0]]%Q.
Definition session (u : Q) : list (aop Q) := [ASetLift (mident 3); AInit qls (Some (qT u)); ASetAnchor qanchor; AReset].
Definition session2 (u : Q) : list (aop Q) := [ASetLift (mident 3); AInit qls (Some (qT u)); AReset].
Definition qrun k (os : list (aop Q)) (fs : FS) : res (FS * Agent Q) :=
  do a0 <- newAgent qx_ext k (qp true); lg_run qfmt (f_show qfmt) "d/" (fun _ => true) qx_ext (fs, a0) os.
Definition files (r : res (FS * Agent Q)) : option (list (option string)) :=
  match r with Ok (fs, _) => Some (map (fun n => fs ("d/" ++ n)) logs) | _ => None end.

Definition head_m : string := "robot_src,pose_src,robot_dst,pose_dst,qx,qy,qz,qw,tx,ty,tz,kappa,tau,is_known_inlier,weight".
Definition head_t : string := "pose_index,qx,qy,qz,qw,tx,ty,tz".
(** One session, then another in which no anchor is set. *)
Lemma ex_sessions :
  files (qrun 0 (AAdd (qodo 0 0) :: session 1) (fun _ => None)) =
    Some [Some (text [head_m; "0,0,0,1,0,0,0,1,1,0,0,1,2,1,1"]);
          Some (text [head_t; "0,0,0,0,1,0,0,0"; "1,0,0,0,1,1,2,3"]);
          Some (String.concat NL ["1, 0, 0, 0, 1, 0, 0, 1"; "0, 1, 0, 0, 0, 1, 0, 2"; "0, 0, 1, 0, 0, 0, 1, 3"]);
          Some (text [head_t; "0,0,0,0,1,0,0,0"; "1,0,0,0,1,1,2,3"])] /\
  files (qrun 0 (AAdd (qodo 0 0) :: session 1 ++ session2 5) (fun _ => None)) =
    Some [Some (text [head_m; "0,0,0,1,0,0,0,1,1,0,0,1,2,1,1"]);
          Some (text [head_t; "0,0,0,0,1,0,0,0"; "1,0,0,0,1,1,2,3"]);
          Some (String.concat NL ["1, 0, 0, 0, 1, 0, 0, 5"; "0, 1, 0, 0, 0, 1, 0, 2"; "0, 0, 1, 0, 0, 0, 1, 3"]);
          Some (text [head_t; "0,0,0,0,1,0,0,0"; "1,0,0,0,1,5,2,3"])].
Proof. vm_compute. auto. Qed.

(** Two robots with the same directory: the second reset replaces the first robot's files. *)
Definition team (fs : FS) : option (list (option string)) :=
  match qrun 0 (AAdd (qodo 0 0) :: session 1) fs with Ok (fs, _) => files (qrun 1 [AAdd (qodo 1 4); ASetLift (mident 3); AReset] fs) | _ => None end.
Lemma ex_team : exists l, team (fun _ => None) = Some (Some (text [head_m; "1,4,1,5,0,0,0,1,1,0,0,1,2,1,1"]) :: l).
Proof. eexists. vm_compute. reflexivity. Qed.

(** ** Over the reals *)
Local Open Scope R_scope.
Definition rp3 : AgentParams R :=
  mkAP 3 3 2 false InitOdometry true false 3 (mkRobustParams L2 20 5 2 1 3 10) 1 1 2 0 1 10 0 true.
Definition rodo3 : Meas R := mkMeas 0 0 0 1 (mident 3) (mlit 3 1 [[1]; [0]; [0]]) 1 1 true 1.
Definition rT3 : Mx R := mlit 3 8 [[1; 0; 0; 0; 1; 0; 0; 1]; [0; 1; 0; 0; 0; 1; 0; 0]; [0; 0; 1; 0; 0; 0; 1; 0]].
Definition rA3 : Mx R := mlit 3 4 [[1; 0; 0; 0]; [0; 1; 0; 0]; [0; 0; 1; 0]].
Definition rops0 : list (aop R) := [AAdd rodo3; ASetLift (mident 3)].
Definition rop1 : aop R := AInit rls (Some (mkPA 3 3 2 rT3)).
Definition rops2 : list (aop R) := rops0 ++ [rop1; ASetX rT3; ASetAnchor rA3].
Definition rrun3 os : res (Agent R) := do a0 <- newAgent rx 0 rp3; ag_run rx a0 os.
Lemma rrun3_reach os (P : Agent R -> Prop) :
  match rrun3 os with Ok a => P a | _ => False end -> Forall aop_ok os -> exists a, areach rx 0 rp3 os a /\ P a.
Proof.
  unfold rrun3, areach. intros T G. destruct (newAgent rx 0 rp3) as [a0| |]; cbn [bind] in *; try contradiction.
  destruct (ag_run rx a0 os) as [a| |]; try contradiction. exists a. auto.
Qed.
Lemma rop1_ok : aop_ok rop1.
Proof. split; [intros T' [= <-]; repeat split|]. split; intros; discriminate. Qed.
Lemma rops2_ok : Forall aop_ok rops2.
Proof. unfold rops2, rops0. cbn [app]. repeat apply Forall_cons; try apply Forall_nil; try apply rop1_ok; try (repeat split; reflexivity); exact I. Qed.

Lemma ident_rot i : (i < 2)%nat -> rot_block 3 (pblk (mkPA 3 3 2 rT3) i).
Proof.
  intros Hi. destruct i as [|[|i]]; [| |lia]; (split; [|cbn; unfold minor, skip; cbn; lra]);
    intros b c Hb Hc; destruct b as [|[|[|b]]]; [| | |lia| | | |lia]; (destruct c as [|[|[|c]]]; [| | |lia]); cbn; lra.
Qed.
Lemma ident_block_rot i : (i < 2)%nat -> rotation 3 (mblock rT3 0 (4 * i) 3 3).
Proof.
  intros Hi. apply (rot_mx 3 _ (pblk (mkPA 3 3 2 rT3) i)); auto; [|apply ident_rot; auto].
  intros k j Hk Hj. unfold pblk. cbn [pa_X pa_d Num.mat mblock]. f_equal; lia.
Qed.
Lemma ident_quat (M : Mx R) : (forall i j, (i < 3)%nat -> (j < 3)%nat -> M i j = if (i =? j)%nat then 1 else 0) -> quat_of M = mkQuat 0 0 0 1.
Proof.
  intros E. unfold quat_of, q_trace. rewrite !E by lia. cbn [Nat.eqb nltb n0 n1 nadd nsub nmul ndiv nsqrt NumR]. rewrite half_R.
  destruct (Rlt_dec 0 (1 + 1 + 1)) as [_|N]; [|lra]. replace (1 + 1 + 1 + 1) with (2 * 2) by ring. rewrite sqrt_square by lra. f_equal; field.
Qed.
Lemma ident_fmt i : (i < 2)%nat -> Forall (fmt_at rfmt (fun v => v)) (pose_nums rT3 i).
Proof.
  intros Hi. unfold pose_nums. rewrite ident_quat.
  - destruct i as [|[|i]]; [| |lia]; cbn [qx qy qz qw rT3 mlit Num.mat nth Nat.mul Nat.add];
      repeat apply Forall_cons; try apply Forall_nil; first [apply rfmt_0|apply rfmt_1].
  - intros k j Hk Hj. destruct i as [|[|i]]; [| |lia]; (destruct k as [|[|[|k]]]; [| | |lia]); (destruct j as [|[|[|j]]]; [| | |lia]); reflexivity.
Qed.
Lemma ident_orth : orthonormal 3 3 (mident (S := R) 3).
Proof. intros b c Hb Hc. destruct b as [|[|[|b]]]; [| | |lia]; (destruct c as [|[|[|c]]]; [| | |lia]); cbn; lra. Qed.
Definition all_ok (_ : string) : bool := true.
Definition none_fs : FS := fun _ => None.
Definition rfull (v : R) : string := if Rlt_dec v 0 then "-" else "+".

Lemma ex_reset : exists a fs' a', areach rx 0 rp3 rops2 a /\ lg_step rfmt rfull "d/" all_ok rx (none_fs, a) AReset = Ok (fs', a') /\
  (exists ms', loadMeasurements rfmt fs' "d/measurements.csv" true = Ok ms' /\ Forall2 same_meas [rodo3] ms') /\
  (exists T', loadTrajectory rfmt "d/" fs' "trajectory_optimized.csv" = Ok (Some T') /\ mx_eq T' rT3).
Proof.
  destruct (rrun3_reach rops2 (fun a => a_state a = INITIALIZED /\ num_poses a = 2%nat /\ a_anchor a = Some rA3 /\ a_X a = mkPA 3 3 2 rT3 /\ measurements (a_pg a) = [rodo3]))
    as (a & Ra & Hs & Hn & Ha & HX & Hm); [vm_compute; auto 8|apply rops2_ok|].
  assert (SV : svds_ok rx 3 3 rA3 (a_X a) (num_poses a)).
  { apply svd_rot. intros i Hi. rewrite Hn in Hi. rewrite HX. apply (orth_ext 3 3 (pblk (mkPA 3 3 2 rT3) i)); [|apply ident_rot; auto].
    intros k j Hk Hj. unfold seen, pblk. cbn [pa_X pa_d]. destruct i as [|[|i]]; [| |lia]; (destruct k as [|[|[|k]]]; [| | |lia]); (destruct j as [|[|[|j]]]; [| | |lia]); cbn; lra. }
  destruct (c31_exact rx 0 rp3 rops2 a rA3 (mident 3) (pblk (mkPA 3 3 2 rT3)) rA3 Ra Hs Ha (rx_det 3) SV ident_orth) as (T & ET & TT & BT).
  { split; [|cbn; unfold minor, skip; cbn; lra]. intros b c Hb Hc. change (p_d rp3) with 3%nat in *. destruct b as [|[|[|b]]]; [| | |lia]; (destruct c as [|[|[|c]]]; [| | |lia]); cbn; lra. }
  { rewrite Hn. apply ident_rot. }
  { intros k j Hk Hj. change (p_d rp3 + 1)%nat with 4%nat in Hj. change (p_r rp3) with 3%nat in Hk. unfold lift. do 3 (destruct k as [|k]; [do 4 (destruct j as [|j]; [cbn; lra|]); lia|]). lia. }
  { intros i k j Hi Hk Hj. rewrite HX. rewrite Hn in Hi. change (p_r rp3) with 3%nat in Hk. unfold lift. cbn.
    destruct k as [|[|[|k]]]; [| | |lia]; cbn; lra. }
  rewrite Hn in BT, TT. change (p_d rp3) with 3%nat in BT, TT.
  assert (Q : mx_eq (pa_X T) rT3).
  { destruct TT as (T1 & T2 & T3 & T4 & T5). split; [exact T4|]. split; [exact T5|]. rewrite T4, T5. intros k j Hk Hj.
    pose proof (Nat.div_mod j 4 ltac:(lia)) as DM. pose proof (Nat.mod_upper_bound j 4 ltac:(lia)) as MB.
    assert (Hi : (j / 4 < 2)%nat) by (apply Nat.div_lt_upper_bound; lia).
    pose proof (BT (j / 4)%nat Hi k (j mod 4)%nat Hk MB) as B. unfold pblk at 1 in B. rewrite T2 in B. replace (j / 4 * (3 + 1) + j mod 4)%nat with j in B by lia.
    rewrite B. clear B. do 8 (destruct j as [|j]; [destruct k as [|[|[|k]]]; [| | |lia]; vm_compute; lra|]). lia. }
  assert (FM : forall i, (i < num_poses a)%nat -> Forall (fmt_at rfmt (fun v => v)) (pose_nums (pa_X T) i)).
  { intros i Hi. rewrite Hn in Hi. destruct Q as (Q1 & Q2 & Q3). replace (pose_nums (pa_X T) i) with (pose_nums rT3 i); [apply ident_fmt; auto|].
    unfold pose_nums. rewrite (quat_ext (mblock (pa_X T) 0 (i * 4) 3 3) (mblock rT3 0 (i * 4) 3 3)).
    - rewrite !Q3 by (rewrite ?Q1, ?Q2; cbn; lia). reflexivity.
    - intros k j Hk Hj. cbn [Num.mat mblock]. apply Q3; rewrite ?Q1, ?Q2; cbn; lia. }
  assert (St : exists a', ag_step rx a AReset = Ok a').
  { cbn [ag_step]. unfold ag_reset. cbv zeta. rewrite getTraj_end, ET. cbn [bind]. destruct (p_log _); cbn [bind]; eauto. }
  destruct St as (a' & Ea). pose proof (areach_inv _ _ _ _ _ Ra) as I. destruct (hist_all _ _ _ _ _ Ra) as (_ & Hp & _).
  destruct (lg_step_total rfmt rfull "d/" all_ok rx none_fs a AReset a' 3) as (fs' & E); auto.
  { eapply step_inv; eauto. exact Logic.I. } { rewrite Hp. reflexivity. } { rewrite (step_params rx a AReset a' I Logic.I Ea), Hp. reflexivity. }
  { rewrite Hn. reflexivity. }
  { cbn [ag_step] in Ea. unfold ag_reset in Ea. cbv zeta in Ea. rewrite endLoop_form in Ea. apply bind_Ok in Ea. destruct Ea as (u & _ & Ea).
    injection Ea as <-. change (N.of_nat (num_poses a) < 1073741824)%N. rewrite Hn. reflexivity. }
  exists a, fs', a'. split; [exact Ra|]. split; [exact E|]. split.
  - destruct (reset_measurements rfmt rfull "d/" all_ok rx 0 rp3 rops2 a none_fs fs' a' Ra eq_refl eq_refl eq_refl E) as [M _]. cbv zeta in M. rewrite Hm in M. apply M.
    + discriminate. + repeat constructor.
    + constructor; [|constructor]. split; [reflexivity|]. split; [reflexivity|]. split; [exact ident_orth|]. cbn. unfold minor, skip. cbn. lra.
    + constructor; [|constructor]. unfold meas_nums. rewrite ident_quat by reflexivity. cbn [qx qy qz qw rodo3 mt mR mkappa mtau mweight mlit Num.mat nth].
      repeat apply Forall_cons; try apply Forall_nil; first [apply rfmt_0|apply rfmt_1].
  - destruct (reset_trajectory rfmt rfull "d/" all_ok rx 0 rp3 rops2 a none_fs fs' a' rA3 Ra eq_refl eq_refl ltac:(rewrite Hn; reflexivity) eq_refl Hs Ha (rx_det 3) SV E) as (T0 & ET0 & L).
    rewrite ET in ET0. injection ET0 as <-. destruct (L FM) as (T' & L1 & L2 & _). exists T'. split; [exact L1|]. destruct L2 as (A1 & A2 & A3), Q as (B1 & B2 & B3).
    split; [congruence|]. split; [congruence|]. intros i j Hi Hj. rewrite A3 by auto. apply B3; congruence.
Qed.

Lemma ex_enter : exists a a', areach rx 0 rp3 rops0 a /\ ag_step rx a rop1 = Ok a' /\ entered a rop1 a' /\
  exists fs', lg_step rfmt rfull "d/" all_ok rx (none_fs, a) rop1 = Ok (fs', a') /\
  exists T', loadTrajectory rfmt "d/" fs' "trajectory_initial.csv" = Ok (Some T') /\ mx_eq T' rT3.
Proof.
  destruct (rrun3_reach rops0 (fun a => a_state a = WAIT_FOR_DATA /\ num_poses a = 2%nat /\
     match ag_step rx a rop1 with Ok a' => a_state a' = INITIALIZED /\ num_poses a' = 2%nat /\ a_YLift a' = Some (mident 3) /\ mx_eq (mmul (mident 3) rT3) (pa_X (a_X a')) | _ => False end))
    as (a & Ra & Hs & Hn & Hst).
  { vm_compute. do 5 (split; [reflexivity|]). split; [reflexivity|]. split; [reflexivity|]. intros i j Hi Hj.
    do 3 (destruct i as [|i]; [do 8 (destruct j as [|j]; [vm_compute; lra|]); lia|]). lia. }
  { unfold rops0. repeat apply Forall_cons; try apply Forall_nil; try (repeat split; reflexivity); exact I. }
  destruct (ag_step rx a rop1) as [a'| |] eqn:Ea; try contradiction. destruct Hst as (H1 & H2 & H3 & H4).
  assert (En : entered a rop1 a') by (split; [rewrite Hs; discriminate|exact H1]).
  pose proof (areach_inv _ _ _ _ _ Ra) as I. destruct (hist_all _ _ _ _ _ Ra) as (_ & Hp & _).
  destruct (lg_step_total rfmt rfull "d/" all_ok rx none_fs a rop1 a' 3) as (fs' & E); auto.
  { eapply step_inv; eauto. apply rop1_ok. } { rewrite Hp. reflexivity. } { rewrite (step_params _ _ _ _ I rop1_ok Ea), Hp. reflexivity. }
  { rewrite Hn. reflexivity. } { rewrite H2. reflexivity. }
  exists a, a'. split; [exact Ra|]. split; [exact Ea|]. split; [exact En|]. exists fs'. split; [exact E|].
  apply (enter_contents rfmt rfull "d/" all_ok rx 0 rp3 rops0 a rop1 none_fs fs' a' (mident 3) rT3 Ra rop1_ok eq_refl eq_refl); auto.
  - rewrite H2. reflexivity.
  - exact ident_orth.
  - rewrite H2. reflexivity.
  - rewrite H2. apply ident_block_rot.
  - rewrite H2. apply ident_fmt.
Qed.
