(** Property C68: a prior set after the matrices were built. *)
From Coq Require Import List NArith Reals.
From Verif Require Import Base Num RSum ModelTypes ModelPoseGraph ModelProblem ModelPoses ModelAgent SpecPoseGraph SpecPGHist SpecCost
  SpecAgent SpecData SpecLate ProofsFramesEx ProofsCostEx ProofsLogEx ProofsLate ProofsLate2.
Import ListNotations.
Local Open Scope R_scope.

(** ** C68 *)
Theorem C68_new_prior : forall id r d os (g : PoseGraph R) i P D g3 X g' v,
  clean id r d os g -> pg_useinact g = false -> handed_ok r d D -> ~ In i (map fst (pg_priors g)) -> late g i P D g3 ->
  qp_f g3 X = Ok (g', v) ->
  v = local_cost (setNeighborPoses g D) X - local_cost (setNeighborPoses g D) (fun _ _ => 0)
      - prior_pull r d P (pose_blk d X (N.to_nat i)).
Proof. exact late_new. Qed.
Print Assumptions C68_new_prior.

Example C68_new_prior_example : exists g g3 g' v, clean 0 3 2 exR_ops g /\ pg_useinact g = false /\ handed_ok 3 2 (exR_nbr 3) /\
  length (pg_shared g) = 2%nat /\ map fst (pg_priors g) = [1%N] /\ ~ In 2%N (map fst (pg_priors g)) /\
  late g 2 (exR_pose 3 1) (exR_nbr 3) g3 /\ qp_f g3 (exR_X 3 3) = Ok (g', v).
Proof. exact late_new_ex. Qed.

Theorem C68_replaced_prior : forall id r d os (g : PoseGraph R) i P D g3 X g' v,
  clean id r d os g -> pg_useinact g = false -> handed_ok r d D -> In i (map fst (pg_priors g)) -> late g i P D g3 ->
  qp_f g3 X = Ok (g', v) ->
  v = local_cost g3 X - local_cost g3 (fun _ _ => 0) /\ reprior g i P D g3.
Proof. exact late_old. Qed.
Print Assumptions C68_replaced_prior.

Example C68_replaced_prior_example : exists g g3 g' v, clean 0 3 2 exR_ops g /\ pg_useinact g = false /\
  handed_ok 3 2 (exR_nbr 3) /\ In 1%N (map fst (pg_priors g)) /\ late g 1 (exR_pose 3 1) (exR_nbr 3) g3 /\
  qp_f g3 (exR_X 3 3) = Ok (g', v).
Proof. exact late_old_ex. Qed.

Theorem C68_bounded : forall id r d os (g : PoseGraph R),
  clean id r d os g -> nposes_ok g -> (forall m, In m (measurements g) -> nonneg_meas m) ->
  exists c, forall X g' v, qp_f g X = Ok (g', v) -> c <= v.
Proof. exact fresh_bounded. Qed.
Print Assumptions C68_bounded.

Example C68_bounded_example : exists g g' v, clean 0 3 2 exR_ops g /\ nposes_ok g /\
  (forall m, In m (measurements g) -> nonneg_meas m) /\ qp_f g (exR_X 3 3) = Ok (g', v).
Proof. exact fresh_bounded_ex. Qed.

Theorem C68_unbounded : forall id r d os (g : PoseGraph R) i P D g3 X g' v,
  clean id r d os g -> pg_useinact g = false -> handed_ok r d D -> pg_shared g = [] -> pg_priors g = [] ->
  late g i P D g3 -> (exists a, (a < r)%nat /\ P a d <> 0) -> qp_f g3 X = Ok (g', v) ->
  forall c, exists u X' w, translated r d (N.to_nat (pg_n g)) u X X' /\ qp_f g3 X' = Ok (g', w) /\ w < c.
Proof. exact late_unbounded. Qed.
Print Assumptions C68_unbounded.

Example C68_unbounded_example : exists g g3 g' v, clean 0 3 2 (map PAdd exR_priv) g /\ pg_useinact g = false /\
  handed_ok 3 2 (exR_nbr 3) /\ pg_shared g = [] /\ pg_priors g = [] /\
  late g 1 (exR_pose 3 1) (exR_nbr 3) g3 /\ (exists a, (a < 3)%nat /\ exR_pose 3 1 a 2%nat <> 0) /\
  qp_f g3 (exR_X 3 3) = Ok (g', v) /\ length (pg_odom g ++ pg_priv g) = 3%nat.
Proof. exact late_unbounded_ex. Qed.

(** The same for an agent without shared edges, anchored once its matrices are
    stored: the graph its next update hands to the optimiser has a cost without
    lower bound. *)
Theorem C68_agent : forall (x : Ext R) id p os a0 a o P a1 acc, newAgent x id p = Ok a0 -> ag_run x a0 os = Ok a -> Forall aop_ok os ->
  spoilt x false a0 os = false -> pg_Q (a_pg a) <> None -> pg_shared (a_pg a) = [] -> pg_priors (a_pg a) = [] ->
  anchoring a o P -> ag_step x a o = Ok a1 -> (exists k, (k < p_r (a_params a))%nat /\ P k (p_d (a_params a)) <> 0) ->
  exists g3, (forall f f', (forall Y, f g3 Y = f' g3 Y) -> ag_updateX f a1 true acc = ag_updateX f' a1 true acc) /\
    forall X g' v, qp_f g3 X = Ok (g', v) -> forall c, exists u X' w,
      translated (p_r (a_params a)) (p_d (a_params a)) (num_poses a) u X X' /\ qp_f g3 X' = Ok (g', w) /\ w < c.
Proof. exact late_agent. Qed.
Print Assumptions C68_agent.

Example C68_agent_example : exists a0 a a1 a2 g3 g' v, newAgent rx 0 rp3 = Ok a0 /\ ag_run rx a0 lops = Ok a /\ Forall aop_ok lops /\
  spoilt rx false a0 lops = false /\ pg_Q (a_pg a) <> None /\ pg_shared (a_pg a) = [] /\ pg_priors (a_pg a) = [] /\
  length (measurements (a_pg a)) = 1%nat /\
  anchoring a (AAnchorWith rP) rP /\ ag_step rx a (AAnchorWith rP) = Ok a1 /\
  (exists k, (k < p_r (a_params a))%nat /\ rP k (p_d (a_params a)) <> 0) /\
  ag_updateX stayR a1 true false = Ok (a2, true) /\
  constructDataMatrices (setNeighborPoses (a_pg a1) (a_ndict a1)) = Ok (g3, true) /\ qp_f g3 (pa_X (a_X a1)) = Ok (g', v).
Proof. exact late_agent_ex. Qed.
