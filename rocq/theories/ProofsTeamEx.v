(** Example teams (C64). *)
From Coq Require Import List NArith ZArith Bool Lia QArith Reals Lra.
From Verif Require Import Base SMap Num ModelTypes ModelPoseGraph ModelProblem ModelRobust ModelPoses ModelSolver ModelAgent ModelTeam
  SpecPoseGraph SpecCost SpecAgent SpecTeam ProofsPoseGraph ProofsPGHist ProofsAgent ProofsAgent2 ProofsAgent3 ProofsAgent4 ProofsAgent5 ProofsAgent6 ProofsAgentEx ProofsFramesEx ProofsTeam ProofsTeam3.
Import ListNotations.
Local Open Scope res_scope.

(** Two robots with two poses each in the plane and an edge between them. *)
Definition tP (_ : N) : AgentParams Q := mkAP 2 3 2 false InitOdometry true false 3 gnc 1 0 2 0%Q 1 10 0%Q false.
Definition shift (u : Q) : Optimizer Q := fun _ X => (None, mkMx (mrows X) (mcols X) (fun i j => if (i =? 0)%nat && (j mod 3 =? 2)%nat then Qred (X i j + u) else X i j)).
Definition tm01 := zm 0 1 1 0 3 0 false 1.
Definition setup : list (top Q) :=
  [TCall 0 (AAdd (zm 0 0 0 1 1 0 true 1)); TCall 0 (AAdd tm01); TCall 1 (AAdd (zm 1 0 1 1 1 0 true 1)); TCall 1 (AAdd tm01);
   TCall 0 (AInit zls None); TCall 1 (AInit zls None); TCall 1 (ASetLift (eye 3 2))] ++ pass 0 1 0 0 ++ pass 1 0 1 1.
Definition trun os := do t0 <- tm_new zx tP 2; tm_run zx t0 os.

Lemma trun_reach os (F : Team Q -> Prop) : match trun os with Ok t => F t | _ => False end -> Forall (top_ok tP) os -> exists t, treach zx tP 2 os t /\ F t.
Proof. unfold trun, treach. intros T Ho. destruct (do t0 <- tm_new zx tP 2; tm_run zx t0 os) as [t| |]; try contradiction. eauto. Qed.
Definition has (t : Team Q) (k : N) (F : Agent Q -> Prop) : Prop := match nth_error (tm_agents t) (N.to_nat k) with Some a => F a | None => False end.
Lemma has_robot t k F : has t k F -> exists a, robot t k a /\ F a.
Proof. unfold has, robot. destruct (nth_error _ _) as [a|]; [eauto|contradiction]. Qed.
Ltac topsok := repeat (apply Forall_app; split); repeat (apply Forall_cons || apply Forall_nil); cbn;
  try exact Logic.I; try discriminate; try (repeat split; try reflexivity; try discriminate; intros; discriminate).
Ltac hasrun := vm_compute; auto 10.

Definition still : list (top Q) := [TCall 0 AUpdWeights; TCall 1 AUpdWeights; TCall 0 (AIterate (shift 0) true); TCall 1 (AIterate (shift 0) true); TSendStatus 0; TSendStatus 1; TStatus 1 2; TStatus 1 3].
Lemma setup_ok : Forall (top_ok tP) setup.
Proof. unfold setup. topsok. Qed.
(** Both robots moved nothing and said so. *)
Lemma ex_terminate : exists t, treach zx tP 2 (setup ++ still) t /\ has t 1 (fun a => ag_shouldTerminate a = Ok true /\ (a_iter a < p_maxit (tP 1))%N /\ ag_isRobotActive a 0 = Ok true /\ ag_isRobotActive a 1 = Ok true).
Proof. apply trun_reach; [hasrun|topsok; apply setup_ok || topsok]. Qed.
Lemma ex_cache : exists t, treach zx tP 2 setup t /\ has t 1 (fun a => map (fun e => (fst e, dump (snd e))) (a_ndict a) = [(mkPoseID 0 1, [[1; 0; 1]; [0; 1; 0]; [0; 0; 0]]%Q)]).
Proof. apply trun_reach; [hasrun|apply setup_ok]. Qed.
(** Robot 0 then moves by 100. *)
Lemma stale_status : exists t, treach zx tP 2 ((setup ++ still) ++ [TCall 0 (AIterate (shift 100) true)]) t /\
  has t 1 (fun a => ag_shouldTerminate a = Ok true /\ (a_iter a < p_maxit (tP 1))%N /\ ag_isRobotActive a 0 = Ok true) /\
  has t 0 (fun b => a_state b = INITIALIZED /\ st_ready (a_status b) = false /\ st_change (a_status b) = 100%Q).
Proof. apply trun_reach; [hasrun|topsok; apply setup_ok || topsok]. Qed.
(** The two robots weigh their edge at different moments. *)
Lemma weights_differ : exists t, treach zx tP 2 (setup ++ [TCall 0 AUpdWeights; TCall 1 (AIterate (shift 100) true); TCall 1 AUpdWeights]) t /\
  has t 0 (fun a => map strip (pg_shared (a_pg a)) = [strip tm01] /\ map mweight (pg_shared (a_pg a)) = [1%Q] /\ a_wuc a = 1%Z) /\ has t 1 (fun b => map strip (pg_shared (a_pg b)) = [strip tm01] /\ map mweight (pg_shared (a_pg b)) = [0%Q] /\ a_wuc b = 1%Z).
Proof. apply trun_reach; [hasrun|topsok; apply setup_ok || topsok]. Qed.

(** ** A message overtaken by an older one *)
Definition okblock (r d : nat) (M : Mx Q) (i : nat) (v : Mx Q) : bool :=
  (mrows v =? r)%nat && (mcols v =? d + 1)%nat && forallb (fun k => forallb (fun l => if Qeq_dec (v k l) (M k (i * (d + 1) + l)%nat) then
     (Zpos (Qden (v k l)) =? Zpos (Qden (M k (i * (d + 1) + l)%nat)))%Z else false) (seq 0 (d + 1))) (seq 0 r).
Lemma Qeq_den (p q : Q) : (p == q)%Q -> Zpos (Qden p) = Zpos (Qden q) -> p = q.
Proof. destruct p as [n u], q as [m v]. unfold Qeq. cbn. intros E F. injection F as <-. f_equal. nia. Qed.
Lemma okblock_is r d M i v : okblock r d M i v = true -> is_block r d M i v.
Proof.
  unfold okblock. rewrite !andb_true_iff, !Nat.eqb_eq, forallb_forall. intros [[E1 E2] F]. split; auto. split; auto. intros k l Hk Hl.
  assert (Fk := F k ltac:(apply in_seq; lia)). rewrite forallb_forall in Fk. specialize (Fk l ltac:(apply in_seq; lia)). cbn in Fk.
  destruct (Qeq_dec _ _) as [Q|]; [|discriminate]. apply Pos.eqb_eq in Fk. apply Qeq_den; auto. congruence.
Qed.
Definition cached (t : Team Q) : option (Mx Q * Agent Q) :=
  match nth_error (tm_agents t) 1, nth_error (tm_agents t) 0 with
  | Some a, Some b => match mfind pose_ltb (mkPoseID 0 1) (a_ndict a) with Some v => Some (v, b) | None => None end
  | _, _ => None
  end.
Definition moved : list (top Q) := setup ++ [TCall 0 (AIterate (shift 100) true)] ++ pass 0 1 2 2.
Lemma moved_ok : Forall (top_ok tP) moved.
Proof. unfold moved. topsok; apply setup_ok || topsok. Qed.
Lemma ex_moved : exists t, treach zx tP 2 moved t /\
  match cached t with Some (v, b) => okblock 3 2 (pa_X (a_X b)) 1 v = true | None => False end /\
  match tm_step zx t (TPoses 1 0) with Ok t' => match cached t' with Some (v, b) => v 0%nat 2%nat = 1%Q /\ pa_X (a_X b) 0%nat 5%nat = 101%Q | None => False end | _ => False end.
Proof. apply trun_reach; [vm_compute; auto|apply moved_ok]. Qed.
Lemma overtaken : exists os t a b t' a', treach zx tP 2 os t /\ robot t 1 a /\ robot t 0 b /\ fresh 3 2 1 a b tm01 /\
  tm_step zx t (TPoses 1 0) = Ok t' /\ robot t' 1 a' /\ robot t' 0 b /\ ~ fresh 3 2 1 a' b tm01.
Proof.
  destruct ex_moved as (t & R & C & N). exists moved, t. unfold cached in C, N. destruct (nth_error (tm_agents t) 1) as [a|] eqn:Ka; [|contradiction]. destruct (nth_error (tm_agents t) 0) as [b|] eqn:Kb; [|contradiction].
  destruct (mfind pose_ltb (mkPoseID 0 1) (a_ndict a)) as [v|] eqn:F; [|contradiction]. exists a, b. destruct (tm_step zx t (TPoses 1 0)) as [t'| |] eqn:E; try contradiction. exists t'.
  destruct (nth_error (tm_agents t') 1) as [a'|] eqn:Ka'; [|contradiction]. destruct (nth_error (tm_agents t') 0) as [b'|] eqn:Kb'; [|contradiction].
  assert (b' = b). { cbn [tm_step] in E. destruct (nth_error (tm_poses t) 0); [|discriminate]. destruct (tm_at t 1); cbn [bind] in E; try discriminate. destruct (ag_step zx a0 _) in E; cbn [bind] in E; try discriminate.
    injection E as <-. cbn [tm_put tm_agents] in Kb'. rewrite upd_nth in Kb'. change (N.to_nat 1 =? 0)%nat with false in Kb'. cbv iota in Kb'. congruence. } subst b'.
  destruct (mfind pose_ltb (mkPoseID 0 1) (a_ndict a')) as [v'|] eqn:F'; [|contradiction]. exists a'. split; [exact R|]. split; [exact Ka|]. split; [exact Kb|]. split.
  { exists v. split; [exact F|]. apply okblock_is. exact C. }
  split; [reflexivity|]. split; [exact Ka'|]. split; [exact Kb'|]. intros (w & Fw & _ & _ & B). change (other_pose 1 tm01) with (mkPoseID 0 1) in *. rewrite F' in Fw. injection Fw as <-.
  specialize (B 0%nat 2%nat ltac:(lia) ltac:(lia)). destruct N as [N1 N2]. rewrite N1 in B. change (N.to_nat (frame_id (mkPoseID 0 1)) * (2 + 1) + 2)%nat with 5%nat in B. rewrite N2 in B. discriminate.
Qed.

(** ** Weights over the reals *)
Local Open Scope R_scope.
Definition rgnc : RobustParams R := mkRobustParams GNC_TLS 20 1 2 1 3 10.
Definition rtP (_ : N) : AgentParams R := mkAP 2 3 2 false InitOdometry false false 3 rgnc 1 0 2 0 1 10 0 false.
Definition rm01 : Meas R := mkMeas 0 1 1 0 (rows 2 2 [[1; 0]; [0; 1]]) (rows 2 1 [[3]; [0]]) 1 1 false 1.
Definition rload (k : N) : list (top R) :=
  [TCall k (AAdd (rm_odom k)); TCall k (AAdd rm01); TCall k (ASetLift rY); TCall k (AInit rls (Some rT)); TCall k (ASetX (mmul rY (pa_X rT)))].
Definition rsetup : list (top R) := rload 0 ++ rload 1.
Definition rtrun os := do t0 <- tm_new rx rtP 2; tm_run rx t0 os.
Lemma rtrun_reach os (F : Team R -> Prop) : match rtrun os with Ok t => F t | _ => False end -> Forall (top_ok rtP) os -> exists t, treach rx rtP 2 os t /\ F t.
Proof. unfold rtrun, treach. intros T Ho. destruct (do t0 <- tm_new rx rtP 2; tm_run rx t0 os) as [t| |]; try contradiction. eauto. Qed.
Lemma rsetup_ok : Forall (top_ok rtP) rsetup.
Proof.
  unfold rsetup, rload. apply Forall_app. split; (repeat apply Forall_cons; try apply Forall_nil; try (repeat split; reflexivity); try exact Logic.I;
  (split; [intros T' [= <-]; repeat split|]; split; intros; discriminate)).
Qed.
Definition rhas (t : Team R) (k : N) (F : Agent R -> Prop) : Prop := match nth_error (tm_agents t) (N.to_nat k) with Some a => F a | None => False end.
Lemma rhas_robot t k F : rhas t k F -> exists a, robot t k a /\ F a.
Proof. unfold rhas, robot. destruct (nth_error _ _) as [a|]; [eauto|contradiction]. Qed.
Definition rfacts (a : Agent R) : Prop := a_state a = INITIALIZED /\ a_YLift a = Some rY /\ a_rc a = mkRobustCost rgnc 0 1 /\ pg_shared (a_pg a) = [rm01] /\ lc_active a rm01 = true /\ a_X a = mkPA 3 2 2 (mmul rY (pa_X rT)).
Lemma rteam : exists t, treach rx rtP 2 rsetup t /\ rhas t 0 rfacts /\ rhas t 1 rfacts /\ length (tm_status t) = 0%nat /\ length (tm_poses t) = 0%nat /\
  match tm_run rx t (pass 1 0 0 0 ++ pass 0 1 1 1 ++ [TCall 0 AUpdWeights; TCall 1 AUpdWeights]) with Ok _ => True | _ => False end.
Proof. apply rtrun_reach; [vm_compute; auto 20|apply rsetup_ok]. Qed.
(** The residual of the edge is 4 from the rotations and 26 from the translations. *)
Lemma rres X : X 0%N = mkPA 3 2 2 (mmul rY (pa_X rT)) -> X 1%N = mkPA 3 2 2 (mmul rY (pa_X rT)) -> edge_res 3 2 rm01 X = sqrt 30.
Proof.
  intros X0 X1. unfold edge_res. f_equal. unfold edge_cost, pose_of_all. cbn [rm01 mr1 mr2 mp1 mp2]. rewrite X0, X1. unfold sq, rY, rT, rows.
  change (N.to_nat 1) with 1%nat. change (N.to_nat 0) with 0%nat. cbn. ring.
Qed.
Lemma rweight : weight (mkRobustCost rgnc 0 1) (sqrt 30) = 0.
Proof.
  unfold weight. cbn [rc_params rgnc costType rc_mu GNCBarc]. unfold nleb, nmul, ndiv, nadd, NumR. rewrite sqrt_sqrt by lra.
  destruct (Rle_dec _ _); [reflexivity|]. cbn in *. lra.
Qed.
Lemma ex_weights_agree : exists t t' a' b', treach rx rtP 2 rsetup t /\
  tm_run rx t (pass 1 0 0 0 ++ pass 0 1 1 1 ++ [TCall 0 AUpdWeights; TCall 1 AUpdWeights]) = Ok t' /\
  robot t' 0 a' /\ robot t' 1 b' /\ In (set_mweight 0 rm01) (pg_shared (a_pg a')) /\ In (set_mweight 0 rm01) (pg_shared (a_pg b')).
Proof.
  destruct rteam as (t & R & Ha & Hb & L1 & L2 & E). destruct (tm_run rx t _) as [t'| |] eqn:Et; try contradiction. clear E.
  apply rhas_robot in Ha, Hb. destruct Ha as (a & Ka & A1 & A2 & A3 & A4 & A5 & A6), Hb as (b & Kb & B1 & B2 & B3 & B4 & B5 & B6).
  destruct (team_weights rx rtP 2 rsetup t 0 1 a b rm01 rm01 t' R Ka Kb A1 B1) as (a' & b' & Ka' & Kb' & Wa & Wb); try assumption; try reflexivity; try congruence.
  - rewrite A4. left. reflexivity.
  - rewrite B4. left. reflexivity.
  - rewrite A3 in Wa, Wb. change (p_r (rtP 0)) with 3%nat in *. change (p_d (rtP 0)) with 2%nat in *. rewrite rres, rweight in Wa, Wb by auto.
    exists t, t', a', b'. auto 10.
Qed.
