(** C67: the matrices an agent optimises with are those of its current data. *)
From Coq Require Import List NArith ZArith Bool QArith.
From Verif Require Import Base SMap Num ModelTypes ModelPoseGraph ModelRobust ModelPoses ModelSolver ModelAgent SpecPoseGraph SpecAgent SpecData
  ProofsAgentEx ProofsData ProofsDataEx.
Import ListNotations.
Local Open Scope res_scope.

(** After any history without a call that changed weights or priors behind a stored matrix and was not made good,
    the result of an iteration, of a pass of the thread and of a restart depends on the optimiser only through its
    answers on graphs with the agent's own data, the poses it received, and both matrices as rebuilt from these. *)
Theorem C67_fresh : forall {S} `{HS : Num S} (x : Ext S) id p os a0 a o o', newAgent x id p = Ok a0 -> ag_run x a0 os = Ok a -> Forall aop_ok os ->
  spoilt x false a0 os = false -> alike_calls (proper a) o o' -> ag_step x a o = ag_step x a o'.
Proof. intros S HS. exact c67_fresh. Qed.

(** A history with an early change of weight, an anchoring made good by an update of the weights, and a neighbour
    switched off and on: two different optimisers satisfy the hypothesis and the iteration succeeds. *)
Example C67_fresh_case : Forall aop_ok mended /\ exists a0 a a', newAgent zx 1 (zp false) = Ok a0 /\ ag_run zx a0 mended = Ok a /\ spoilt zx false a0 mended = false /\
    alike_calls (proper a) (AIterate stay true) (AIterate spy true) /\
    ag_iterate zx spy a true = Ok (a', true) /\
    ~ (pa_X (a_X a) 0%nat 0%nat == 0)%Q /\ (pa_X (a_X a') 0%nat 0%nat == pa_X (a_X a) 0%nat 0%nat)%Q.
Proof. exact (conj mended_ok (unspoilt_spec _ _ ex_mended)). Qed.
Example C67_fresh_case3 : Forall aop_ok toggled /\ exists a0 a a', newAgent zx 1 (zp false) = Ok a0 /\ ag_run zx a0 toggled = Ok a /\ spoilt zx false a0 toggled = false /\
    alike_calls (proper a) (AIterate stay true) (AIterate spy true) /\
    ag_iterate zx spy a true = Ok (a', true) /\
    ~ (pa_X (a_X a) 0%nat 0%nat == 0)%Q /\ (pa_X (a_X a') 0%nat 0%nat == pa_X (a_X a) 0%nat 0%nat)%Q.
Proof. exact (conj toggled_ok (unspoilt_spec _ _ ex_toggled)). Qed.
Example C67_fresh_case2 : Forall aop_ok accelerated /\ exists a0 a, newAgent zx 1 (zp true) = Ok a0 /\ ag_run zx a0 accelerated = Ok a /\ spoilt zx false a0 accelerated = false /\
  alike_calls (proper a) (ARestart stay true) (ARestart spy true) /\ is_init a = true.
Proof. exact (conj accelerated_ok ex_accel). Qed.

(** After any history at all, everything but the quadratic matrix is right. *)
Theorem C67_rest : forall {S} `{HS : Num S} (x : Ext S) id p os a0 a o o', newAgent x id p = Ok a0 -> ag_run x a0 os = Ok a -> Forall aop_ok os ->
  alike_calls (handed a) o o' -> ag_step x a o = ag_step x a o'.
Proof. intros S HS. exact c67_rest. Qed.

(** The quadratic matrix is not: each of these calls, made after an iteration, is followed by an iteration with a
    matrix of the old weights or without the prior. *)
Theorem C67_weight_refuted : exists x id p os (s t : PoseID) (w : Q) b, Forall aop_ok (os ++ [ASetWeight s t w b]) /\ blamed x id p os (ASetWeight s t w b) [].
Proof. exact bad_weight. Qed.
Theorem C67_anchor_refuted : exists (x : Ext Q) id p os, Forall aop_ok (os ++ [AAnchorFirst]) /\ blamed x id p os AAnchorFirst [].
Proof. exact bad_anchor. Qed.
Theorem C67_prior_refuted : exists (x : Ext Q) id p os M, Forall aop_ok (os ++ [AAnchorWith M]) /\ blamed x id p os (AAnchorWith M) [].
Proof. exact bad_prior. Qed.
Theorem C67_reinit_refuted : exists (x : Ext Q) id p os T k dict, Forall aop_ok (os ++ [AInitGlobal T; AUpdNbr k dict]) /\ blamed x id p os (AInitGlobal T) [AUpdNbr k dict].
Proof. exact bad_reinit. Qed.
Theorem C67_robust_refuted : exists (x : Ext Q) id p os, Forall aop_ok (os ++ [AInitRobust]) /\ blamed x id p os AInitRobust [].
Proof. exact bad_robust. Qed.

Print Assumptions C67_fresh.
Print Assumptions C67_rest.
Print Assumptions C67_weight_refuted.
Print Assumptions C67_anchor_refuted.
Print Assumptions C67_prior_refuted.
Print Assumptions C67_reinit_refuted.
Print Assumptions C67_robust_refuted.
