(** Specifications for the momentum parameters and for changes of frame
    (C29-C31, C38). *)
From Coq Require Import List NArith ZArith Reals.
From Verif Require Import Base SMap Num RSum Det ModelTypes ModelPoseGraph ModelRobust ModelPoses ModelSolver ModelAgent SpecPoseGraph SpecCost SpecSolver.
Local Open Scope R_scope.

(** ** Momentum *)

(** The sequence of the accelerated method for N robots. *)
Definition gamma_seq (N : N) (g : nat -> R) : Prop :=
  g O = 0 /\ forall k, 0 < g (S k) /\ IZR (Z.of_N N) * sq (g (S k)) - g (S k) = IZR (Z.of_N N) * sq (g k).

(** ** Poses as d x (d+1) blocks [R t] *)

Definition beq (d : nat) (A B : nat -> nat -> R) : Prop :=
  forall i j, (i < d)%nat -> (j < d + 1)%nat -> A i j = B i j.
(** [A] then [B]: rotation R_A R_B, translation R_A t_B + t_A. *)
Definition comp (d : nat) (A B : nat -> nat -> R) (i j : nat) : R :=
  rsum d (fun k => A i k * B k j) + (if Nat.eqb j d then A i d else 0).
(** Rotation R^T, translation -R^T t. *)
Definition pinv (d : nat) (A : nat -> nat -> R) (i j : nat) : R :=
  if Nat.eqb j d then - rsum d (fun k => A k i * A k d) else A j i.
(** [B] seen from [A]. *)
Definition rel (d : nat) (A B : nat -> nat -> R) : nat -> nat -> R := comp d (pinv d A) B.
Definition unit_block (i j : nat) : R := if Nat.eqb i j then 1 else 0.

(** The lifting of a block: r x (d+1). *)
Definition lift (d : nat) (Y : nat -> nat -> R) (A : nat -> nat -> R) (i j : nat) : R := rsum d (fun k => Y i k * A k j).

(** The matrix inverse used for poses is right at rigid ones. *)
Definition inverse_ok (minv : Mx R -> Mx R) (d : nat) : Prop := forall p, rigid d p -> inv_at minv d p.
(** Determinants of d x d matrices are right. *)
Definition det_ok (dt : Mx R -> R) (d : nat) : Prop := forall A, sized d d A -> dt A = det d A.

(** ** Joining a neighbour's frame *)

(** After moving the own pose [Ti] by [W] it and the neighbour's pose [Tn] satisfy
    the measurement, whichever of the two robots is the source. *)
Definition joined (id : N) (d : nat) (m : Meas R) (Tn Ti W : nat -> nat -> R) : Prop :=
  if (mr2 m =? id)%N then link d m Tn (comp d W Ti) else link d m (comp d W Ti) Tn.

(** The trajectory [initialize()] starts from: the caller's if its sizes fit, else
    the result of the configured method. *)
Definition fits (a : Agent R) (T : PoseArr R) : Prop := pa_d T = p_d (a_params a) /\ pa_n T = num_poses a.
Definition used_trajectory (x : Ext R) (ls : LocalSolvers R) (a : Agent R) (TI : option (PoseArr R)) (T : PoseArr R) : Prop :=
  (TI = Some T /\ fits a T) \/
  (forall T0, TI = Some T0 -> ~ fits a T0) /\
  match p_init (a_params a) with
  | InitOdometry => odometryInitialization (pg_odom (a_pg a)) None = Ok T
  | InitChordal => ls_chordal ls (localMeasurements (a_pg a)) = Ok T
  | InitGNC => exists TO ms, odometryInitialization (pg_odom (a_pg a)) None = Ok TO /\
      solveRobustPGO (x_mudiv x) (ls_solve ls TO) (localMeasurements (a_pg a)) init_gnc_params = Ok (T, ms)
  end.

(** ** Export *)

(** An r x (d+1) block seen through the transpose of an r x d matrix. *)
Definition seen (r : nat) (Y B : nat -> nat -> R) (i j : nat) : R := rsum r (fun k => Y k i * B k j).
(** Q is a rotation closest to M. *)
Definition rounds (d : nat) (M Q : nat -> nat -> R) : Prop :=
  rot_block d Q /\ forall Q', rotation d Q' -> dist2 d d M Q <= dist2 d d M Q'.
(** The singular value decompositions taken during an export of n poses are right. *)
Definition svds_ok (x : Ext R) r d (Y : nat -> nat -> R) (X : PoseArr R) n : Prop :=
  forall i M, (i < n)%nat -> sized d d M -> (forall k j, (k < d)%nat -> (j < d)%nat -> M k j = seen r Y (pblk X i) k j) ->
    svd_at (x_svd_full x) d d M.

(** The current value of a pose as the agent knows it: its own estimate, or what the
    owner last sent. *)
Definition known_pose (a : Agent R) (q : PoseID) : option (nat -> nat -> R) :=
  if (robot_id q =? a_id a)%N then Some (pblk (a_X a) (N.to_nat (frame_id q)))
  else match mfind pose_ltb q (a_ndict a) with Some v => Some (Num.mat v) | None => None end.
