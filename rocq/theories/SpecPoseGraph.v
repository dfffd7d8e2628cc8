(** Specification vocabulary for the pose graph, independent of the model's
    functions: only the measurement record and lists are used. *)
From Coq Require Import List NArith Bool.
From Verif Require Import Base Num ModelTypes.
Import ListNotations.
Local Open Scope N_scope.

Section Spec.
Context {S : Type}.
Implicit Types (m : Meas S) (L : list (Meas S)).

(** Ids small enough that neither the id nor its successor wraps at 32 bits. *)
Definition ids_ok m : Prop :=
  mr1 m < 4294967295 /\ mr2 m < 4294967295 /\ mp1 m < 4294967295 /\ mp2 m < 4294967295.

(** Rotation d-by-d, translation d-by-1. *)
Definition shape_ok (d : nat) m : Prop :=
  mrows (mR m) = d /\ mcols (mR m) = d /\ mrows (mt m) = d /\ mcols (mt m) = 1%nat.

Definition relevantb (id : N) m : bool := (mr1 m =? id) || (mr2 m =? id).

(** Same directed edge. *)
Definition same_edgeb m m' : bool :=
  (mr1 m =? mr1 m') && (mr2 m =? mr2 m') && (mp1 m =? mp1 m') && (mp2 m =? mp2 m').

(** Keep the first occurrence of every directed edge, in order. *)
Fixpoint firsts L : list (Meas S) :=
  match L with
  | [] => []
  | m :: L' => m :: filter (fun m' => negb (same_edgeb m m')) (firsts L')
  end.

(** The three kinds of edge seen from robot [id]. *)
Definition is_odom (id : N) m : bool :=
  (mr1 m =? id) && (mr2 m =? id) && (mp2 m =? mp1 m + 1).
Definition is_priv (id : N) m : bool :=
  (mr1 m =? id) && (mr2 m =? id) && negb (mp2 m =? mp1 m + 1).
Definition is_shared (id : N) m : bool :=
  ((mr1 m =? id) && negb (mr2 m =? id)) || ((mr2 m =? id) && negb (mr1 m =? id)).

(** What robot [id] should keep of an input sequence. *)
Definition kept (id : N) L : list (Meas S) := firsts (filter (relevantb id) L).

(** Own pose indices touched by an edge. *)
Definition own_poses (id : N) m : list N :=
  (if mr1 m =? id then [mp1 m] else []) ++ (if mr2 m =? id then [mp2 m] else []).

(** Number of poses: one more than the largest own index, 0 if there is none. *)
Definition num_poses_spec (id : N) L (n : N) : Prop :=
  (forall m p, In m L -> In p (own_poses id m) -> p < n) /\
  (n = 0 \/ exists m p, In m L /\ In p (own_poses id m) /\ n = p + 1).

(** Remote robot, remote pose and own pose of a shared edge. *)
Definition other_robot (id : N) m : N := if mr1 m =? id then mr2 m else mr1 m.
Definition other_pose (id : N) m : PoseID :=
  if mr1 m =? id then mkPoseID (mr2 m) (mp2 m) else mkPoseID (mr1 m) (mp1 m).
Definition own_pose (id : N) m : PoseID :=
  if mr1 m =? id then mkPoseID (mr1 m) (mp1 m) else mkPoseID (mr2 m) (mp2 m).

(** The measurement joins exactly these two poses. *)
Definition joins m (src dst : PoseID) : Prop :=
  mr1 m = robot_id src /\ mp1 m = frame_id src /\ mr2 m = robot_id dst /\ mp2 m = frame_id dst.

Definition joinsb (src dst : PoseID) m : bool :=
  (mr1 m =? robot_id src) && (mp1 m =? frame_id src) &&
  (mr2 m =? robot_id dst) && (mp2 m =? frame_id dst).

(** Everything of a measurement except its weight and its fixed flag. *)
Definition strip m : N * N * N * N * Mx S * Mx S * S * S :=
  (mr1 m, mr2 m, mp1 m, mp2 m, mR m, mt m, mkappa m, mtau m).

End Spec.

(** Abstract record of a history of pose graph calls: what was handed in since
    the last clearing, and which robots were switched on or off. *)
Record Hist (S : Type) := mkHist { h_in : list (Meas S); h_act : N -> bool }.
Arguments mkHist {S}. Arguments h_in {S}. Arguments h_act {S}.

Definition h_set (f : N -> bool) (k : N) (b : bool) : N -> bool :=
  fun x => if x =? k then b else f x.

Section Hist.
Context {S : Type}.

(** One more measurement is handed in. A new shared edge switches its other
    robot on. *)
Definition h_add (id : N) (h : Hist S) (m : Meas S) : Hist S :=
  mkHist (h_in h ++ [m])
    (if is_shared id m && negb (existsb (fun m' => same_edgeb m' m) (kept id (h_in h)))
     then h_set (h_act h) (other_robot id m) true else h_act h).

Definition h_empty : Hist S := mkHist [] (fun _ => true).

(** Is [k] the other robot of a kept shared edge? *)
Definition h_nbr (id : N) (h : Hist S) (k : N) : bool :=
  existsb (fun m => is_shared id m && (other_robot id m =? k)) (kept id (h_in h)).

End Hist.
