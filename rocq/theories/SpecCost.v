(** The weighted least-squares cost of pose graph optimisation over the reals,
    written with plain sums. Poses are r-by-(d+1) blocks [a c => value]. *)
From Coq Require Import List NArith Bool Reals Permutation.
From Verif Require Import Base Num RSum ModelTypes ModelPoseGraph ModelProblem SpecPoseGraph SpecPGHist.
Import ListNotations.
Local Open Scope R_scope.

Definition sq (x : R) : R := x * x.

(** Pose number [i] of a matrix of poses. *)
Definition pose_blk (d : nat) (X : nat -> nat -> R) (i : nat) : nat -> nat -> R :=
  fun a c => X a (i * S d + c)%nat.

(** kappa |Y_i R - Y_j|^2 + tau |p_j - p_i - Y_i t|^2, times the weight. *)
Definition edge_cost (r d : nat) (m : Meas R) (Xi Xj : nat -> nat -> R) : R :=
  mweight m *
  (mkappa m * rsum r (fun a => rsum d (fun c => sq (rsum d (fun b => Xi a b * mR m b c) - Xj a c))) +
   mtau m * rsum r (fun a => sq (Xj a d - Xi a d - rsum d (fun b => Xi a b * mt m b 0%nat)))).

(** Prior on a pose with the precisions 10000 and 100 of the code. *)
Definition prior_cost (r d : nat) (P X : nat -> nat -> R) : R :=
  10000 * rsum r (fun a => rsum d (fun c => sq (X a c - P a c))) +
  100 * rsum r (fun a => sq (X a d - P a d)).

(** The remote pose entering a shared edge: known, and its robot active (or
    inactive robots are to be used). *)
Definition remote_pose (g : PoseGraph R) (m : Meas R) : option (Mx R) :=
  if match isNeighborActive g (other_robot (pg_id g) m) with Ok true => true | _ => false end
     || pg_useinact g
  then match find (fun kv => poseid_eqb (fst kv) (other_pose (pg_id g) m)) (pg_nposes g) with
       | Some (_, Z) => Some Z | None => None end
  else None.

Definition private_cost (g : PoseGraph R) (X : nat -> nat -> R) : R :=
  nsumL (fun m => edge_cost (pg_r g) (pg_d g) m
                    (pose_blk (pg_d g) X (N.to_nat (mp1 m))) (pose_blk (pg_d g) X (N.to_nat (mp2 m))))
        (pg_odom g ++ pg_priv g).

Definition shared_cost (g : PoseGraph R) (X : nat -> nat -> R) : R :=
  nsumL (fun m => match remote_pose g m with
                  | None => 0
                  | Some Z =>
                      if (mr1 m =? pg_id g)%N
                      then edge_cost (pg_r g) (pg_d g) m (pose_blk (pg_d g) X (N.to_nat (mp1 m))) Z
                      else edge_cost (pg_r g) (pg_d g) m Z (pose_blk (pg_d g) X (N.to_nat (mp2 m)))
                  end) (pg_shared g).

Definition priors_cost (g : PoseGraph R) (X : nat -> nat -> R) : R :=
  nsumL (fun kv : N * Mx R => prior_cost (pg_r g) (pg_d g) (snd kv) (pose_blk (pg_d g) X (N.to_nat (fst kv))))
        (pg_priors g).

(** One half of the sum over all terms. *)
Definition local_cost (g : PoseGraph R) (X : nat -> nat -> R) : R :=
  / 2 * (private_cost g X + shared_cost g X + priors_cost g X).

(** States reached by a history that keeps the caches fresh (C07). *)
Definition clean (id : N) (r d : nat) (os : list (pgop R)) (g : PoseGraph R) : Prop :=
  exists g0, newPoseGraph id r d = Ok g0 /\ Forall op_ok os /\
             disciplined false g0 os /\ pg_run g0 os = Ok g.

(** Cached neighbour poses have the size r-by-(d+1); the agent checks this on
    arrival (PGOAgent.cpp:672-673), PoseGraph itself does not. *)
Definition nposes_ok (g : PoseGraph R) : Prop :=
  forall p Z, In (p, Z) (pg_nposes g) -> mrows Z = pg_r g /\ mcols Z = S (pg_d g).

(** p-by-q matrix with orthonormal columns. *)
Definition orthonormal (p q : nat) (Y : nat -> nat -> R) : Prop :=
  forall b c, (b < q)%nat -> (c < q)%nat ->
    rsum p (fun a => Y a b * Y a c) = if Nat.eqb b c then 1 else 0.

(** [X'] is [X] with every pose moved by the rigid motion (O, v). *)
Definition moved (r d n : nat) (O : nat -> nat -> R) (v : nat -> R) (X X' : nat -> nat -> R) : Prop :=
  forall a i c, (a < r)%nat -> (i < n)%nat -> (c <= d)%nat ->
    X' a (i * S d + c)%nat =
    rsum r (fun b => O a b * X b (i * S d + c)%nat) + (if Nat.eqb c d then v a else 0).

(** [g] is [g0] with every neighbour pose and prior multiplied by [Y]. *)
Definition lifted (Y : Mx R) (g0 g : PoseGraph R) : Prop :=
  pg_id g = pg_id g0 /\ pg_d g = pg_d g0 /\ pg_r g = mrows Y /\ pg_r g0 = mcols Y /\
  pg_odom g = pg_odom g0 /\ pg_priv g = pg_priv g0 /\ pg_shared g = pg_shared g0 /\
  (forall k, isNeighborActive g k = isNeighborActive g0 k) /\ pg_useinact g = pg_useinact g0 /\
  pg_nposes g = map (fun kv => (fst kv, mmul Y (snd kv))) (pg_nposes g0) /\
  pg_priors g = map (fun kv => (fst kv, mmul Y (snd kv))) (pg_priors g0).

(** ** Team *)
(** Measurements [M] of all robots; trajectory [X k] of robot [k]; priors [P k]. *)
Definition central_edge (r d : nat) (X : N -> Mx R) (m : Meas R) : R :=
  edge_cost r d m (pose_blk d (X (mr1 m)) (N.to_nat (mp1 m))) (pose_blk d (X (mr2 m)) (N.to_nat (mp2 m))).
Definition central_cost (r d : nat) (M : list (Meas R)) (ids : list N) (P : N -> list (N * Mx R)) (X : N -> Mx R) : R :=
  / 2 * (nsumL (central_edge r d X) M +
         nsumL (fun k => nsumL (fun kv : N * Mx R => prior_cost r d (snd kv) (pose_blk d (X k) (N.to_nat (fst kv)))) (P k)) ids).

Definition touches (k : N) (m : Meas R) : bool := (mr1 m =? k)%N || (mr2 m =? k)%N.

(** Robot [k] stores exactly the measurements that touch it. *)
Definition knows (k : N) (M : list (Meas R)) (g : PoseGraph R) : Prop :=
  Permutation (pg_odom g ++ pg_priv g ++ pg_shared g) (filter (touches k) M).

(** Every neighbour pose it needs is cached and up to date. *)
Definition current (g : PoseGraph R) (X : N -> Mx R) : Prop :=
  forall m, In m (pg_shared g) -> exists Z, remote_pose g m = Some Z /\
    let q := other_pose (pg_id g) m in
    forall a c, (a < pg_r g)%nat -> (c <= pg_d g)%nat ->
      Z a c = pose_blk (pg_d g) (X (robot_id q)) (N.to_nat (frame_id q)) a c.

(** One update: robot [k] replaces its trajectory by one whose local cost [f],
    evaluated by its own problem, is not larger. *)
Definition team_step (r d : nat) (M : list (Meas R)) (ids : list N) (P : N -> list (N * Mx R)) (X X' : N -> Mx R) : Prop :=
  exists k os g g1 g2 v v', In k ids /\ clean k r d os g /\ knows k M g /\ pg_priors g = P k /\
    current g X /\ nposes_ok g /\
    qp_f g (X k) = Ok (g1, v) /\ qp_f g (X' k) = Ok (g2, v') /\ v' <= v /\
    forall j, j <> k -> X' j = X j.

Inductive team_run (r d : nat) (M : list (Meas R)) (ids : list N) (P : N -> list (N * Mx R)) : (N -> Mx R) -> (N -> Mx R) -> Prop :=
| team_nil X : team_run r d M ids P X X
| team_cons X X' X'' : team_step r d M ids P X X' -> team_run r d M ids P X' X'' -> team_run r d M ids P X X''.

(** Rigid alignment of two poses by a measurement. *)
Definition consistent (d : nat) (m : Meas R) (R1 t1 R2 t2 : Mx R) : Prop :=
  (forall a c, (a < d)%nat -> (c < d)%nat -> R2 a c = rsum d (fun b => R1 a b * mR m b c)) /\
  (forall a, (a < d)%nat -> t2 a 0%nat = t1 a 0%nat + rsum d (fun b => R1 a b * mt m b 0%nat)).

(** The same for lifted poses, which have r rows. *)
Definition consistent_in (r d : nat) (m : Meas R) (R1 t1 R2 t2 : Mx R) : Prop :=
  (forall a c, (a < r)%nat -> (c < d)%nat -> R2 a c = rsum d (fun b => R1 a b * mR m b c)) /\
  (forall a, (a < r)%nat -> t2 a 0%nat = t1 a 0%nat + rsum d (fun b => R1 a b * mt m b 0%nat)).

(** Weights and precisions that make sense. *)
Definition nonneg_meas (m : Meas R) : Prop := 0 <= mweight m /\ 0 <= mkappa m /\ 0 <= mtau m.

(** Multiplication of a matrix by a vector. *)
Definition mulv (B : Mx R) (v : nat -> R) (i : nat) : R := rsum (mcols B) (fun j => B i j * v j).
