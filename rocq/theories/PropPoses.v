(** Properties C26-C28: odometry initialisation, pose algebra, array accessors. *)
From Coq Require Import List NArith Reals.
From Verif Require Import Base Num RSum Det ModelTypes ModelPoses ModelProblem ModelSolver SpecCost SpecSolver
  ProofsPoses ProofsPosesEx ProofsOdom.
Import ListNotations.
Local Open Scope R_scope.

(** ** C26 *)
Theorem C26_chain_exact : forall d odo, chain d odo -> (forall m, In m odo -> rotation d (mR m)) ->
  exists T, odometryInitialization odo None = Ok T /\ traj d (S (length odo)) T /\
    (forall a c, (a < d)%nat -> (c < d + 1)%nat -> pblk T 0 a c = idm a c) /\
    (forall k, (k <= length odo)%nat -> rot_block d (pblk T k)) /\
    forall k m, nth_error odo k = Some m -> forall b, (b < d)%nat ->
      (forall c, (c < d)%nat -> rsum d (fun a => pblk T k a b * pblk T (S k) a c) = mR m b c) /\
      rsum d (fun a => pblk T k a b * (pblk T (S k) a d - pblk T k a d)) = mt m b O.
Proof. exact odometry_exact. Qed.
Print Assumptions C26_chain_exact.

(** Without asking for rotations: the composition itself, for any matrices. *)
Theorem C26_chain_any : forall d odo, chain d odo ->
  exists T, odometryInitialization odo None = Ok T /\ traj d (S (length odo)) T /\
    (forall a c, (a < d)%nat -> (c < d + 1)%nat -> pblk T 0 a c = idm a c) /\
    forall k m, nth_error odo k = Some m -> link d m (pblk T k) (pblk T (S k)).
Proof. exact odometry_chain. Qed.
Print Assumptions C26_chain_any.

Example C26_example : chain 2 [oxm 0 1; oxm 1 2; oxm 2 3] /\
  (forall m, In m [oxm 0 1; oxm 1 2; oxm 2 3] -> rotation 2 (mR m)).
Proof. exact ox_chain. Qed.

Theorem C26_partial_trajectory : forall d odo P, chain d odo -> traj d (pa_n P) P -> (0 < pa_n P)%nat ->
  let n := S (length odo) in let s := Nat.min (pa_n P) n in
  exists T, odometryInitialization odo (Some P) = Ok T /\ traj d n T /\
    (forall i a c, (i < s)%nat -> (a < d)%nat -> (c < d + 1)%nat -> pblk T i a c = pblk P i a c) /\
    forall k m, (s <= S k)%nat -> nth_error odo k = Some m -> link d m (pblk T k) (pblk T (S k)).
Proof. exact odometry_partial_start. Qed.
Print Assumptions C26_partial_trajectory.

Example C26_partial_example : exists P : PoseArr R, pa_new 2 2 2 = Ok P /\ traj 2 (pa_n P) P /\ (0 < pa_n P)%nat.
Proof. destruct (fresh_traj 2 2) as (P & E & H). exists P. pose proof H as (_ & _ & N & _). rewrite N. auto. Qed.

(** An odometry list that does not start at pose 0, with a partial trajectory covering its start,
    reads past the end of the list. *)
Theorem C26_overread_refuted : exists P : PoseArr R, pa_new 2 2 6 = Ok P /\ odometryInitialization [oxm 5 6] (Some P) = UB.
Proof. exact odometry_overread. Qed.
Print Assumptions C26_overread_refuted.

(** ** C27 *)
Theorem C27_associative : forall d p q s, wf1 d p -> wf1 d q -> wf1 d s ->
  exists pq qs x y, pose_mul p q = Ok pq /\ pose_mul q s = Ok qs /\ pose_mul pq s = Ok x /\ pose_mul p qs = Ok y /\ pose_eq x y.
Proof. exact mul_assoc_pose. Qed.
Print Assumptions C27_associative.

Theorem C27_acts : forall d p q s, wf1 d p -> wf1 d q -> pose_mul p q = Ok s ->
  forall x i, (i < d)%nat -> act d s x i = act d p (act d q x) i.
Proof. exact mul_act. Qed.
Print Assumptions C27_acts.

Theorem C27_unit : forall d p e, wf1 d p -> pose_identity d = Ok e ->
  exists x y, pose_mul p e = Ok x /\ pose_mul e p = Ok y /\ pose_eq x p /\ pose_eq y p.
Proof. exact mul_unit. Qed.
Print Assumptions C27_unit.

Theorem C27_identity : forall d, exists e, pose_identity d = Ok e /\ rigid d e /\ forall x i, (i < d)%nat -> act d e x i = x i.
Proof. exact identity_rigid. Qed.
Print Assumptions C27_identity.

Theorem C27_product_rigid : forall d p q, rigid d p -> rigid d q -> exists s, pose_mul p q = Ok s /\ rigid d s.
Proof. exact mul_rigid. Qed.
Print Assumptions C27_product_rigid.

Theorem C27_inverse : forall minv d p, rigid d p -> inv_at minv d p ->
  exists s x y e, pose_inverse minv p = Ok s /\ rigid d s /\ pose_identity d = Ok e /\
    pose_mul p s = Ok x /\ pose_eq x e /\ pose_mul s p = Ok y /\ pose_eq y e.
Proof. exact inverse_laws. Qed.
Print Assumptions C27_inverse.

Example C27_example : rigid 2 px /\ inv_at (fun _ => px_inv) 2 px.
Proof. split; [exact px_rigid|exact px_inv_ok]. Qed.

(** ** C28 *)
Theorem C28_pose : forall (a a' : PoseArr R) i B, pa_set_pose a i B = Ok a' ->
  same_dims a a' /\ (i < pa_n a)%nat /\ reads (pa_pose a' i) B /\ forall j, j <> i -> same_pose a a' j.
Proof. exact set_pose_spec. Qed.
Print Assumptions C28_pose.

Theorem C28_rotation : forall (a a' : PoseArr R) i B, pa_set_rot a i B = Ok a' ->
  same_dims a a' /\ (i < pa_n a)%nat /\ reads (pa_rot a' i) B /\ same_read (pa_trans a i) (pa_trans a' i) /\
  forall j, j <> i -> same_pose a a' j.
Proof. exact set_rot_spec. Qed.
Print Assumptions C28_rotation.

Theorem C28_translation : forall (a a' : PoseArr R) i B, pa_set_trans a i B = Ok a' ->
  same_dims a a' /\ (i < pa_n a)%nat /\ reads (pa_trans a' i) B /\ same_read (pa_rot a i) (pa_rot a' i) /\
  forall j, j <> i -> same_pose a a' j.
Proof. exact set_trans_spec. Qed.
Print Assumptions C28_translation.

Theorem C28_defined : forall (a : PoseArr R) i, (i < pa_n a)%nat ->
  (forall B, mrows B = pa_r a -> mcols B = (pa_d a + 1)%nat -> exists a', pa_set_pose a i B = Ok a') /\
  (forall B, mrows B = pa_r a -> mcols B = pa_d a -> exists a', pa_set_rot a i B = Ok a') /\
  (forall B, mrows B = pa_r a -> mcols B = 1%nat -> exists a', pa_set_trans a i B = Ok a').
Proof. exact set_defined. Qed.
Print Assumptions C28_defined.

Theorem C28_out_of_range : forall (a : PoseArr R) i B, (pa_n a <= i)%nat ->
  pa_pose a i = Abort /\ pa_rot a i = Abort /\ pa_trans a i = Abort /\
  pa_set_pose a i B = Abort /\ pa_set_rot a i B = Abort /\ pa_set_trans a i B = Abort.
Proof. exact out_of_range. Qed.
Print Assumptions C28_out_of_range.

Theorem C28_parts : forall (a : PoseArr R) i P Q t, pa_pose a i = Ok P -> pa_rot a i = Ok Q -> pa_trans a i = Ok t ->
  forall x c, (c < pa_d a + 1)%nat -> P x c = if Nat.ltb c (pa_d a) then Q x c else t x O.
Proof. exact pose_parts. Qed.
Print Assumptions C28_parts.

(** Pose i occupies columns i(d+1) to i(d+1)+d of the array. *)
Theorem C28_layout : forall (a : PoseArr R) i P, pa_pose a i = Ok P ->
  mrows P = pa_r a /\ mcols P = (pa_d a + 1)%nat /\
  forall x c, (c < pa_d a + 1)%nat -> P x c = pa_X a x (i * (pa_d a + 1) + c)%nat.
Proof. exact pose_layout. Qed.
Print Assumptions C28_layout.

Example C28_example : exists a', pa_set_rot px_a 2 (mlit 3 2 [[0; 1]; [1; 0]; [0; 0]]) = Ok a' /\
  pa_X a' 1%nat 6%nat = 1 /\ pa_X a' 1%nat 8%nat = pa_X px_a 1%nat 8%nat /\
  pa_X a' 1%nat 5%nat = pa_X px_a 1%nat 5%nat /\ pa_X a' 1%nat 9%nat = pa_X px_a 1%nat 9%nat /\
  pa_set_rot px_a 4 (mzero 3 2) = Abort.
Proof. exact px_arr. Qed.
