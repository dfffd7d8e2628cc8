(** Example histories of agents, over the rationals, used by PropAgent. *)
From Coq Require Import List NArith ZArith Bool Lia QArith.
From Verif Require Import Base SMap Num ModelTypes ModelPoseGraph ModelProblem ModelRobust ModelPoses ModelSolver ModelAgent
  SpecPoseGraph SpecAgent ProofsPoseGraph ProofsPGHist ProofsAgent ProofsAgent2 ProofsAgent3 ProofsAgent4 ProofsAgent5 ProofsAgent6.
Import ListNotations.
Local Open Scope res_scope.

(** Rational arithmetic with a square root that is exact on squares; the results
    it is used for hold for every [Num]. *)
#[global] Instance NumQ : Num Q := {
  n0 := 0%Q; n1 := 1%Q;
  nadd := fun a b => Qred (a + b); nsub := fun a b => Qred (a - b); nmul := fun a b => Qred (a * b); ndiv := fun a b => Qred (a / b);
  nopp := Qopp; nsqrt := fun a => Qred (Z.sqrt (Qnum a * Zpos (Qden a)) # Qden a);
  nltb := fun a b => negb (Qle_bool b a); nleb := Qle_bool; neqb := Qeq_bool;
  nofZ := inject_Z }.

(** Inverse of a homogeneous matrix with orthogonal rotation. *)
Definition rigid_inv (M : Mx Q) : Mx Q :=
  let d := (mrows M - 1)%nat in
  let R := mtr (mblock M 0 0 d d) in
  let t := mblock M 0 d d 1 in
  msetblock (msetblock (mident (d + 1)) 0 0 R) 0 d (mscal (-1)%Q (mmul R t)).

Definition eye (r d : nat) : Mx Q := msetblock (mzero r d) 0 0 (mident d).
Definition zx : Ext Q := mkExt
  (fun M => (mident (mrows M), mident (mrows M))) (fun _ => 1%Q)
  (fun M => (eye (mrows M) (mcols M), mident (mcols M))) rigid_inv Qdiv (fun d r => eye r d) 1%Q.
Definition zls : LocalSolvers Q := mkLS (fun _ => Abort) (fun _ _ => Abort).

Definition gnc : RobustParams Q := mkRobustParams GNC_TLS 20 5%Q 2%Q 1%Q 3%Q 10%Q.
Definition zp (accel : bool) : AgentParams Q :=
  mkAP 2 3 2 false InitOdometry true accel 3 gnc 1 1 2 0%Q 1 10 0%Q false.

(** Planar measurement: translation (x, y), no rotation. *)
Definition zm (r1 p1 r2 p2 : N) (u v : Q) (fixed : bool) (w : Q) : Meas Q :=
  mkMeas r1 r2 p1 p2 (mident 2) (mkMx 2 1 (fun i _ => match i with O => u | _ => v end)) 1%Q 1%Q fixed w.
Definition zpose (u v : Q) : Mx Q :=
  mkMx 3 3 (fun i j => match i, j with
    | 0%nat, 0%nat | 1%nat, 1%nat => 1%Q | 0%nat, 2%nat => u | 1%nat, 2%nat => v | _, _ => 0%Q end).

Definition load : list (aop Q) :=
  [AAdd (zm 1 0 1 1 1 0 true 1); AAdd (zm 1 1 1 2 1 0 true 1);
   AAdd (zm 1 0 1 2 9 0 false 1); AAdd (zm 1 2 1 0 (-2) 0 true 7);
   AAdd (zm 0 5 1 0 3 0 false 1); AAdd (zm 1 2 0 6 1 4 false 1)].
Definition st0 (k : N) (it : N) (b : bool) : aop Q := AStatus (mkStatus k INITIALIZED 0 it b 0%Q).
Definition join : list (aop Q) :=
  load ++ [AInit zls None; ASetLift (eye 3 2); st0 0 0 true;
           AUpdNbr 0 [(mkPoseID 0 5, zpose 0 0); (mkPoseID 0 6, zpose 6 4); (mkPoseID 0 9, zpose 1 1)]].
Definition zopt : Optimizer Q := fun _ X => (None, madd X X).

Definition dump {A} (M : Mx A) := map (fun i => map (fun j => M i j) (seq 0 (mcols M))) (seq 0 (mrows M)).

Definition run (id : N) acc os : res (Agent Q) := do a0 <- newAgent zx id (zp acc); ag_run zx a0 os.

(** Read a fact off the end of a run. *)
Lemma run_reach id acc os (P : Agent Q -> Prop) :
  match run id acc os with Ok a => P a | _ => False end -> Forall aop_ok os ->
  exists a, areach zx id (zp acc) os a /\ P a.
Proof.
  unfold run, areach. intros T F. destruct (newAgent zx id (zp acc)) as [a0| |]; cbn [bind] in *; try contradiction.
  destruct (ag_run zx a0 os) as [a| |]; try contradiction. exists a. auto.
Qed.
Ltac opsok := repeat (apply Forall_app; split); repeat (apply Forall_cons || apply Forall_nil); cbn;
  try exact I; try (repeat split; try reflexivity; try discriminate; intros; discriminate);
  try (unfold msorted; cbn; repeat constructor).

Definition aux : aop Q := AUpdAux 0 [(mkPoseID 0 5, zpose 0 0); (mkPoseID 0 6, zpose 6 4)].
Lemma join_ok : Forall aop_ok join.
Proof. unfold join, load, st0. opsok. Qed.
Lemma aux_ok : aop_ok aux.
Proof. cbn. unfold msorted. cbn. repeat constructor. Qed.

Lemma ex_life : exists a, areach zx 1 (zp false) (join ++ [AIterate zopt true; AIterate zopt false; AReset; AAdd (zm 1 2 1 3 1 0 true 1); AIterate zopt true]) a /\
  (a_state a = WAIT_FOR_DATA /\ a_inst a = 1%N /\ a_iter a = 1%N /\ num_poses a = 4%nat).
Proof. apply run_reach; [vm_compute; auto|opsok; apply join_ok || opsok]. Qed.

Lemma ex_joined acc : exists a, areach zx 1 (zp acc) join a /\
  (a_state a = INITIALIZED /\ num_poses a = 3%nat /\ map fst (a_ndict a) = [mkPoseID 0 5; mkPoseID 0 6] /\
   map (fun e => (fst e, dump (snd e))) (match ag_getSharedPoseDict a with Ok (Some D) => D | _ => [] end) =
     [(mkPoseID 1 0, [[1; 0; 3]; [0; 1; 0]; [0; 0; 0]]%Q); (mkPoseID 1 2, [[1; 0; 5]; [0; 1; 0]; [0; 0; 0]]%Q)]).
Proof. apply run_reach; [destruct acc; vm_compute; auto|apply join_ok]. Qed.

Lemma aux_dict_aborts : exists a, areach zx 1 (zp false) join a /\
  (a_state a = INITIALIZED /\ ag_getAuxSharedPoseDictWithNeighbor a 0 = Abort).
Proof. apply run_reach; [vm_compute; auto|apply join_ok]. Qed.

Lemma ex_team : exists a, areach zx 1 (zp false) (join ++ [AUpdWeights; st0 0 0 true; st0 1 0 false; AIterate zopt true; st0 1 1 true]) a /\
  (ag_shouldTerminate a = Ok true /\ (a_iter a < p_maxit (a_params a))%N /\ map fst (a_team a) = [0; 1]%N).
Proof. apply run_reach; [vm_compute; auto|opsok; apply join_ok || opsok]. Qed.

Lemma ex_wait : exists a, areach zx 1 (zp false) (join ++ [AUpdWeights; st0 0 0 true]) a /\
  (ag_shouldTerminate a = Ok false /\ map fst (a_team a) = [0]%N).
Proof. apply run_reach; [vm_compute; auto|opsok; apply join_ok || opsok]. Qed.

Lemma ex_update : exists a, areach zx 1 (zp false) (join ++ [AIterate zopt true; st0 1 1 true]) a /\
  (ag_shouldUpdateMeasurementWeights a = Ok true /\ (a_inner a < p_innerIters (a_params a))%Z).
Proof. apply run_reach; [vm_compute; auto|opsok; apply join_ok || opsok]. Qed.

Lemma ex_limit : exists a, areach zx 1 (zp false) (join ++ [AIterate zopt true; AIterate zopt true; st0 1 1 false]) a /\
  ag_shouldUpdateMeasurementWeights a = Ok true.
Proof. apply run_reach; [vm_compute; auto|opsok; apply join_ok || opsok]. Qed.

Lemma ex_nolimit : exists a, areach zx 1 (zp false) (join ++ [AIterate zopt true; st0 1 1 false]) a /\
  ag_shouldUpdateMeasurementWeights a = Ok false.
Proof. apply run_reach; [vm_compute; auto|opsok; apply join_ok || opsok]. Qed.

Lemma ex_missing : exists a, areach zx 1 (zp false) (join ++ [AClearNbr; AUpdNbr 0 [(mkPoseID 0 5, zpose 0 0)]]) a /\
  (a_state a = INITIALIZED /\ map fst (a_ndict a) = [mkPoseID 0 5] /\
   match ag_iterate zx zopt a true with Ok (_, s) => s = false | _ => False end).
Proof. apply run_reach; [vm_compute; auto|opsok; apply join_ok || opsok]. Qed.

Lemma ex_weights : exists a, areach zx 1 (zp false) join a /\
  (map mweight (pg_priv (a_pg a)) = [1; 7]%Q /\ map mfixed (pg_priv (a_pg a)) = [false; true] /\
   match ag_updateMeasurementWeights a with
   | Ok a' => map mweight (pg_priv (a_pg a')) = [0; 7]%Q /\ map mweight (pg_shared (a_pg a')) = [1; 1]%Q
   | _ => False end).
Proof. apply run_reach; [vm_compute; auto|apply join_ok]. Qed.

Lemma ex_inactive : exists a, areach zx 1 (zp false) (join ++ [AIterate zopt true; ASetActive 0 false]) a /\
  match ag_updateMeasurementWeights a with
  | Ok a' => map mweight (pg_priv (a_pg a')) = [0; 7]%Q /\ map mweight (pg_shared (a_pg a')) = [1; 1]%Q
  | _ => False end.
Proof. apply run_reach; [vm_compute; auto|opsok; apply join_ok || opsok]. Qed.

Lemma ex_restart : exists a, areach zx 1 (zp true) (join ++ [aux; AIterate zopt true]) a /\
  (a_gamma a = (1 # 2)%Q /\ a_alpha a = 1%Q /\
   match ag_iterate zx zopt a true with Ok (a', s) => a_iter a' = 2%N /\ a_gamma a' = 0%Q | _ => False end).
Proof. apply run_reach; [vm_compute; auto|apply Forall_app; split; [apply join_ok|repeat constructor; apply aux_ok]]. Qed.

Lemma reset_keeps : exists a, areach zx 1 (zp false) (join ++ [AReset]) a /\
  (a_state a = WAIT_FOR_DATA /\ num_poses a = 3%nat /\ length (measurements (a_pg a)) = 6%nat).
Proof. apply run_reach; [vm_compute; auto|opsok; apply join_ok || opsok]. Qed.

(** A trajectory of two poses at distance 1. *)
Definition zarr : res (PoseArr Q) := pa_new 2 2 2.
Lemma robust_overwrites : exists (ms : list (Meas Q)) T ms' m m',
  solveRobustPGO Qdiv (fun _ => zarr) ms init_gnc_params = Ok (T, ms') /\
  In (m, m') (combine ms ms') /\ mfixed m = true /\ mweight m' <> mweight m.
Proof.
  exists [zm 0 0 0 1 1 0 true 7].
  destruct (solveRobustPGO Qdiv (fun _ => zarr) [zm 0 0 0 1 1 0 true 7] init_gnc_params) as [[T ms']| |] eqn:E.
  - exists T, ms'. pose proof (solveRobust_fixed _ _ _ _ _ _ E) as F. inversion F as [|m m' l l' (A & B & C) F' E1 E2]. subst.
    exists (zm 0 0 0 1 1 0 true 7), m'. split; auto. split; [cbn; auto|]. split; auto. rewrite C by reflexivity. cbn. discriminate.
  - exfalso. vm_compute in E. discriminate.
  - exfalso. vm_compute in E. discriminate.
Qed.
