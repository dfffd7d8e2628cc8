(** Examples for the published status (C55). *)
From Coq Require Import List NArith ZArith Bool Lia QArith Reals Lra Floats.
From Verif Require Import Base SMap Num NumFloat ModelTypes ModelPoseGraph ModelProblem ModelRobust ModelPoses ModelSolver ModelAgent
  SpecPoseGraph SpecAgent SpecStatus ProofsAgentEx.
Import ListNotations.
Local Open Scope res_scope.

(** An optimiser that moves every translation by one unit. *)
Definition zshift : Optimizer Q := fun _ X => (None, mkMx (mrows X) (mcols X) (fun i j => if (Nat.eqb (j mod 3) 2 && Nat.eqb i 0)%bool then Qred (X i j + 1) else X i j)).
Lemma ex_status : exists a, areach zx 1 (zp false) (join ++ [AIterate zshift true; AIterate zshift false]) a /\
  (st_ready (a_status a) = true /\ st_change (a_status a) = 1%Q /\ st_iter (a_status a) = 1%N /\ a_iter a = 2%N).
Proof. apply run_reach; [vm_compute; auto|opsok; apply join_ok || opsok]. Qed.
Lemma ex_status_far : exists a, areach zx 1 (zp false) (join ++ [AIterate zopt true]) a /\
  (st_ready (a_status a) = true /\ st_change (a_status a) = 5%Q).
Proof. apply run_reach; [vm_compute; auto|opsok; apply join_ok || opsok]. Qed.
Lemma ex_status_wait : exists a, areach zx 1 (zp false) (join ++ [AIterate zshift true; AUpdWeights]) a /\
  (st_ready (a_status a) = false /\ st_change (a_status a) = 0%Q).
Proof. apply run_reach; [vm_compute; auto|opsok; apply join_ok || opsok]. Qed.

(** Binary64: an optimiser that returns NaN everywhere. *)
Local Open Scope float_scope.
Definition feye (r d : nat) : Mx float := msetblock (mzero r d) 0 0 (mident d).
Definition frigid_inv (M : Mx float) : Mx float :=
  let d := (mrows M - 1)%nat in
  let R := mtr (mblock M 0 0 d d) in
  let t := mblock M 0 d d 1 in
  msetblock (msetblock (mident (d + 1)) 0 0 R) 0 d (mscal (-1) (mmul R t)).
Definition fx : Ext float := mkExt
  (fun M => (mident (mrows M), mident (mrows M))) (fun _ => 1)
  (fun M => (feye (mrows M) (mcols M), mident (mcols M))) frigid_inv PrimFloat.div (fun d r => feye r d) 1.
Definition fp : AgentParams float :=
  mkAP 2 3 1 false InitOdometry true false 3 (mkRobustParams L2 20 5 2 1 3 10) 0 0 2 0 1 10 (0x1p-10) false.
Definition fm (p1 p2 : N) (u v : float) : Meas float :=
  mkMeas 0 0 p1 p2 (mident 2) (mkMx 2 1 (fun i _ => match i with O => u | _ => v end)) 1 1 true 1.
Definition fls : LocalSolvers float := mkLS (fun _ => Abort) (fun _ _ => Abort).
Definition fnan : Optimizer float := fun _ X => (None, mkMx (mrows X) (mcols X) (fun _ _ => nan)).
Definition fops : list (aop float) := [AAdd (fm 0 1 1 0); AAdd (fm 1 2 1 0); AInit fls None].
Lemma nan_ready : exists a, areach fx 0 fp (fops ++ [AIterate fnan true]) a /\ st_ready (a_status a) = true /\ st_change (a_status a) = 0 /\
  (forall i j, (i < 3)%nat -> (j < 9)%nat -> a_X a = mkPA 3 2 3 (pa_X (a_X a)) /\ PrimFloat.is_nan (pa_X (a_X a) i j) = true).
Proof.
  assert (Q : match (do a0 <- newAgent fx 0 fp; ag_run fx a0 (fops ++ [AIterate fnan true])) with
    | Ok a => st_ready (a_status a) = true /\ st_change (a_status a) = 0 /\ a_X a = mkPA 3 2 3 (mkMx 3 9 (fun _ _ => nan)) | _ => False end)
    by (vm_compute; auto).
  destruct (do a0 <- newAgent fx 0 fp; ag_run fx a0 (fops ++ [AIterate fnan true])) as [a| |] eqn:E; try contradiction.
  destruct Q as (Q1 & Q2 & Q3). exists a. split; [split; [exact E|]|].
  - unfold fops. opsok.
  - split; auto. split; auto. intros i j _ _. rewrite Q3. split; reflexivity.
Qed.

(** No poses: the average is 0/0. *)
Local Open Scope R_scope.
Lemma avg_empty : exists a b : PoseArr XR, arr 3 2 0 a /\ arr 3 2 0 b /\ averageTranslationDistance a b = Ok XNaN.
Proof.
  exists (mkPA 3 2 0 (mzero 3 0)), (mkPA 3 2 0 (mzero 3 0)). split; [repeat split|]. split; [repeat split|].
  unfold averageTranslationDistance. cbn. destruct (Req_EM_T 0 0); [|lra]. unfold xsign. destruct (Rlt_dec 0 0); [lra|]. reflexivity.
Qed.
(** A pose whose translation is a NaN does not count. *)
Lemma max_nan : exists a b : PoseArr XR, arr 2 2 1 a /\ arr 2 2 1 b /\ pa_X a 0%nat 2%nat = XNaN /\ pa_X b 0%nat 2%nat = Fin 7 /\
  maxTranslationDistance a b = Ok (Fin 0).
Proof.
  exists (mkPA 2 2 1 (mkMx 2 3 (fun _ _ => XNaN))), (mkPA 2 2 1 (mkMx 2 3 (fun _ _ => Fin 7))). split; [repeat split|]. split; [repeat split|].
  split; [reflexivity|]. split; reflexivity.
Qed.
Lemma ex_dist : exists a b : PoseArr R, arr 2 2 2 a /\ arr 2 2 2 b /\ pa_X a 0%nat 5%nat = 3 /\ pa_X b 0%nat 5%nat = 0.
Proof.
  exists (mkPA 2 2 2 (mkMx 2 6 (fun i j => if Nat.eqb j 5 then 3 else 1))), (mkPA 2 2 2 (mkMx 2 6 (fun i j => 0))).
  repeat split.
Qed.
