(** Frame alignment, initialisation and export: C29, C30, C31. *)
From Coq Require Import List NArith ZArith Bool Arith Reals.
From Verif Require Import Base SMap Num RSum Det ModelTypes ModelPoseGraph ModelProblem ModelRobust ModelPoses ModelSolver ModelAgent
  SpecPoseGraph SpecCost SpecSolver SpecAgent SpecFrames ProofsFrames2 ProofsResidual ProofsFrames3 ProofsFramesEx.
Import ListNotations.
Local Open Scope R_scope.

(** ** C29 *)
(** The transform computed for a shared edge, in either direction, is rigid and the
    only one after which the two poses satisfy the measurement. *)
Theorem C29_transform : forall x id p os a m nbr Tn T YL, areach x id p os a ->
  let d := p_d p in let i := N.to_nat (frame_id (own_pose id m)) in
  In m (pg_shared (a_pg a)) -> a_TLocal a = Some T -> a_YLift a = Some YL -> orthonormal (p_r p) d YL -> inverse_ok (x_minv x) d ->
  rot_block d (mR m) -> rot_block d (pblk T i) -> rot_block d Tn ->
  sized (p_r p) (d + 1) nbr -> (forall k j, (k < p_r p)%nat -> (j < d + 1)%nat -> nbr k j = lift d YL Tn k j) ->
  exists W, ag_computeNeighborTransform x a m nbr = Ok W /\ rigid d W /\
    joined id d m Tn (pblk T i) (pa_X W) /\
    forall W', joined id d m Tn (pblk T i) W' -> beq d W' (pa_X W).
Proof. exact c29_transform. Qed.
Print Assumptions C29_transform.

(** Entering the global frame by it makes the residual of that edge zero. *)
Theorem C29_residual : forall x id p os a m nbr Tn T YL W a' c, areach x id p os a ->
  let d := p_d p in let i := N.to_nat (frame_id (own_pose id m)) in
  In m (pg_shared (a_pg a)) -> a_TLocal a = Some T -> a_YLift a = Some YL -> orthonormal (p_r p) d YL -> inverse_ok (x_minv x) d ->
  rot_block d (mR m) -> rot_block d (pblk T i) -> rot_block d Tn ->
  sized (p_r p) (d + 1) nbr -> (forall k j, (k < p_r p)%nat -> (j < d + 1)%nat -> nbr k j = lift d YL Tn k j) ->
  ag_computeNeighborTransform x a m nbr = Ok W -> ag_initializeInGlobalFrame a W = Ok a' ->
  mfind pose_ltb (other_pose id m) c = Some nbr ->
  ag_residual (sa_ndict a' c) m = Ok (Some 0).
Proof. exact c29_residual. Qed.
Print Assumptions C29_residual.

(** Both directions on one agent: (0,4)->(1,1) and (1,0)->(0,6), quarter turns. *)
Example C29_example : exists a T, areach rx 1 (rp true) waiting a /\ a_TLocal a = Some T /\
  (exists W, ag_computeNeighborTransform rx a rm_in rnbr = Ok W /\ rigid 2 W /\ joined 1 2 rm_in rTn (pblk T 1) (pa_X W)) /\
  (exists W, ag_computeNeighborTransform rx a rm_out rnbr = Ok W /\ rigid 2 W /\ joined 1 2 rm_out rTn (pblk T 0) (pa_X W)).
Proof. exact ex_transform. Qed.

(** ** C30 *)
(** After [initialize] the local trajectory is the one used, seen from its first
    pose; an agent that is initialised at once starts there. *)
Theorem C30_local : forall x id p os (a : Agent R) ls TI a', areach x id p os a -> aop_ok (AInit ls TI) ->
  ag_initialize x ls a TI = Ok a' -> a_state a = WAIT_FOR_DATA -> a_state a' <> WAIT_FOR_DATA -> inverse_ok (x_minv x) (p_d p) ->
  exists T T', let d := p_d p in let n := num_poses a in
    used_trajectory x ls a TI T /\ (n <= pa_n T)%nat /\ a_TLocal a' = Some T' /\ traj d n T' /\
    (is_traj T -> rot_block d (pblk T 0) ->
       beq d (pblk T' 0) unit_block /\
       (forall i, (i < n)%nat -> beq d (pblk T' i) (rel d (pblk T 0) (pblk T i))) /\
       (forall i j, (i < n)%nat -> (j < n)%nat -> rot_block d (pblk T i) ->
          beq d (rel d (pblk T' i) (pblk T' j)) (rel d (pblk T i) (pblk T j)))) /\
    (a_state a' = INITIALIZED -> exists YL, a_YLift a = Some YL /\
       forall i k j, (i < n)%nat -> (k < p_r p)%nat -> (j < d + 1)%nat -> pblk (a_X a') i k j = lift d YL (pblk T' i) k j).
Proof. exact c30_local. Qed.
Print Assumptions C30_local.

(** Entering the global frame moves the local trajectory by one transform. *)
Theorem C30_enter : forall x id p os (a : Agent R) TW a', areach x id p os a -> ag_initializeInGlobalFrame a TW = Ok a' -> is_traj TW ->
  exists T YL, let d := p_d p in let n := num_poses a in a_TLocal a = Some T /\ a_YLift a = Some YL /\
    a_TLocal a' = Some T /\ a_XInit a' = Some (a_X a') /\ arr (p_r p) d n (a_X a') /\
    (pa_n TW = 1%nat -> forall i k j, (i < n)%nat -> (k < p_r p)%nat -> (j < d + 1)%nat ->
       pblk (a_X a') i k j = lift d YL (comp d (pa_X TW) (pblk T i)) k j) /\
    (orthonormal d d (pa_X TW) -> forall A B, orthonormal d d A ->
       beq d (rel d (comp d (pa_X TW) A) (comp d (pa_X TW) B)) (rel d A B)).
Proof. exact c30_enter. Qed.
Print Assumptions C30_enter.

Example C30_example : exists a T, areach rx 1 (rp true) waiting a /\ a_state a = WAIT_FOR_INITIALIZATION /\
  num_poses a = 2%nat /\ a_YLift a = Some rY /\ pg_shared (a_pg a) = [rm_in; rm_out] /\ a_TLocal a = Some T /\
  beq 2 (pblk T 0) unit_block /\ beq 2 (pblk T 1) (rel 2 (pblk rT 0) (pblk rT 1)) /\
  rot_block 2 (pblk T 0) /\ rot_block 2 (pblk T 1).
Proof. exact waiting_local. Qed.

(** ** C31 *)
(** The exported trajectory: rotations nearest to the estimate's seen from the
    anchor, translations relative to the anchor's. *)
Theorem C31_global : forall x id p os (a : Agent R) Xa, areach x id p os a -> let d := p_d p in let r := p_r p in let n := num_poses a in
  a_state a = INITIALIZED -> a_anchor a = Some Xa -> det_ok (x_det x) d -> svds_ok x r d Xa (a_X a) n ->
  exists T, ag_getTrajectoryInGlobalFrame x a = Ok (Some T) /\ traj d n T /\ forall i, (i < n)%nat ->
    rounds d (seen r Xa (pblk (a_X a) i)) (pblk T i) /\
    forall k, (k < d)%nat -> pblk T i k d = seen r Xa (pblk (a_X a) i) k d - seen r Xa Xa k d.
Proof. exact c31_global. Qed.
Print Assumptions C31_global.

(** A lifted trajectory and a lifted anchor give back the poses relative to the anchor. *)
Theorem C31_exact : forall x id p os (a : Agent R) Xa YL P Pa, areach x id p os a -> let d := p_d p in let r := p_r p in let n := num_poses a in
  a_state a = INITIALIZED -> a_anchor a = Some Xa -> det_ok (x_det x) d -> svds_ok x r d Xa (a_X a) n ->
  orthonormal r d YL -> rot_block d Pa -> (forall i, (i < n)%nat -> rot_block d (P i)) ->
  (forall k j, (k < r)%nat -> (j < d + 1)%nat -> Xa k j = lift d YL Pa k j) ->
  (forall i k j, (i < n)%nat -> (k < r)%nat -> (j < d + 1)%nat -> pblk (a_X a) i k j = lift d YL (P i) k j) ->
  exists T, ag_getTrajectoryInGlobalFrame x a = Ok (Some T) /\ traj d n T /\ forall i, (i < n)%nat -> beq d (pblk T i) (rel d Pa (P i)).
Proof. exact c31_exact. Qed.
Print Assumptions C31_exact.

Example C31_example : exists a T, areach rx 1 (rp false) placed a /\ ag_getTrajectoryInGlobalFrame rx a = Ok (Some T) /\
  beq 2 (pblk T 0) (rel 2 rPa (pblk rT 0)) /\ beq 2 (pblk T 1) (rel 2 rPa (pblk rT 1)).
Proof. exact ex_global. Qed.

(** A single pose is exported without rounding its rotation. *)
Theorem C31_pose : forall x id p os (a : Agent R) Xa i, areach x id p os a -> let d := p_d p in let r := p_r p in
  a_state a = INITIALIZED -> a_anchor a = Some Xa ->
  (pg_n (a_pg a) <= i -> ag_getPoseInGlobalFrame a i = Ok None)%N /\
  ((i < pg_n (a_pg a))%N -> exists P, ag_getPoseInGlobalFrame a i = Ok (Some P) /\ sized d (d + 1) P /\
     forall k j, (k < d)%nat -> (j < d + 1)%nat -> 
       P k j = seen r Xa (pblk (a_X a) (N.to_nat i)) k j - (if (j =? d)%nat then seen r Xa Xa k d else 0)).
Proof. exact c31_pose. Qed.
Print Assumptions C31_pose.

(** The same for a cached neighbour pose. *)
Theorem C31_neighbour : forall x id p os (a : Agent R) Xa k i, areach x id p os a -> let d := p_d p in let r := p_r p in
  a_state a = INITIALIZED -> a_anchor a = Some Xa ->
  match mfind pose_ltb (mkPoseID k i) (a_ndict a) with
  | None => ag_getNeighborPoseInGlobalFrame a k i = Ok None
  | Some Xi => exists P, ag_getNeighborPoseInGlobalFrame a k i = Ok (Some P) /\ sized d (d + 1) P /\
     forall l j, (l < d)%nat -> (j < d + 1)%nat -> P l j = seen r Xa Xi l j - (if (j =? d)%nat then seen r Xa Xa l d else 0)
  end.
Proof. exact c31_neighbour. Qed.
Print Assumptions C31_neighbour.

(** Nothing is exported before initialisation or without an anchor. *)
Theorem C31_none : forall x id p os (a : Agent R), areach x id p os a -> a_state a <> INITIALIZED \/ a_anchor a = None ->
  ag_getTrajectoryInGlobalFrame x a = Ok None /\ (forall i, ag_getPoseInGlobalFrame a i = Ok None) /\
  (forall k i, ag_getNeighborPoseInGlobalFrame a k i = Ok None) /\
  (a_state a <> INITIALIZED -> ag_getTrajectoryInLocalFrame x a = Ok None).
Proof. exact c31_none. Qed.
Print Assumptions C31_none.

(** The local frame: the first pose is moved to the origin, the other translations
    are not; the documented trajectory comes out only if the first translation was
    zero already or there is one pose. *)
Theorem C31_local : forall x id p os (a : Agent R), areach x id p os a -> let d := p_d p in let r := p_r p in let n := num_poses a in
  let X0 := pblk (a_X a) 0 in
  a_state a = INITIALIZED -> det_ok (x_det x) d -> svds_ok x r d X0 (a_X a) n ->
  exists T, ag_getTrajectoryInLocalFrame x a = Ok (Some (pa_X T)) /\ traj d n T /\
    (forall i, (i < n)%nat -> rounds d (seen r X0 (pblk (a_X a) i)) (pblk T i)) /\
    (forall i k, (i < n)%nat -> (k < d)%nat -> pblk T i k d = if (i =? 0)%nat then 0 else seen r X0 (pblk (a_X a) i) k d) /\
    ((forall i k, (i < n)%nat -> (k < d)%nat -> pblk T i k d = seen r X0 (pblk (a_X a) i) k d - seen r X0 X0 k d) <->
     n = 1%nat \/ forall k, (k < d)%nat -> seen r X0 X0 k d = 0) /\
    (orthonormal r d X0 -> beq d (pblk T 0) unit_block).
Proof. exact c31_local. Qed.
Print Assumptions C31_local.

(** An agent whose estimate is the lifted trajectory [rT]: the second translation
    relative to the first pose is (1, -2), the export says (2, -7). *)
Theorem C31_local_refuted : exists a T, areach rx 1 (rp false) placed a /\ ag_getTrajectoryInLocalFrame rx a = Ok (Some (pa_X T)) /\
  traj 2 2 T /\ pblk T 0 0%nat 2%nat = 0 /\ pblk T 0 1%nat 2%nat = 0 /\ pblk T 1 0%nat 2%nat = 2 /\ pblk T 1 1%nat 2%nat = -7 /\
  rel 2 (pblk rT 0) (pblk rT 1) 0%nat 2%nat = 1 /\ rel 2 (pblk rT 0) (pblk rT 1) 1%nat 2%nat = -2.
Proof. exact ex_local. Qed.
Print Assumptions C31_local_refuted.


(** ** C25: the residual a robust weight is computed from *)
(** It is the root of the unweighted cost of the edge at the agent's own estimate and the neighbour's last
    delivered pose, and unknown exactly when that pose is. *)
Theorem C25_residual : forall x id p os (a : Agent R) m, areach x id p os a -> a_state a = INITIALIZED ->
  In m (measurements (a_pg a)) ->
  ag_residual a m = Ok match known_pose a (mkPoseID (mr1 m) (mp1 m)), known_pose a (mkPoseID (mr2 m) (mp2 m)) with
                       | Some P1, Some P2 => Some (sqrt (edge_cost (p_r p) (p_d p) (set_mweight 1 m) P1 P2))
                       | _, _ => None
                       end.
Proof. exact residual_value. Qed.
Print Assumptions C25_residual.

Example C25_residual_example : exists a, areach rx 1 (rp false) placed a /\ a_state a = INITIALIZED /\ In (rm_odom 1) (measurements (a_pg a)) /\
  ag_residual a (rm_odom 1) = Ok (Some (sqrt 12)).
Proof. exact ex_residual. Qed.
