(** Identifiers and measurements.
    Source: include/DPGO/DPGO_types.h, include/DPGO/RelativeSEMeasurement.h *)
From Coq Require Import List NArith Bool.
From Verif Require Import Base Num.
Import ListNotations.
Local Open Scope N_scope.

(** DPGO_types.h:110-120 [class PoseID]: two [unsigned int].  Values built from
    [size_t] ids go through [pose_of], which truncates to 32 bits. *)
Record PoseID := mkPoseID { robot_id : N; frame_id : N }.

(** Implicit conversion in [PoseID(m.r1, m.p1)] (size_t -> unsigned int). *)
Definition pose_of (r p : N) : PoseID := mkPoseID (u32 r) (u32 p).

(** DPGO_types.h:116-119 [PoseID::operator==] *)
Definition poseid_eqb (a b : PoseID) : bool :=
  (robot_id a =? robot_id b) && (frame_id a =? frame_id b).

(** DPGO_types.h:122-128 [ComparePoseID]: lexicographic on (robot, frame). *)
Definition pose_ltb (a b : PoseID) : bool :=
  (robot_id a <? robot_id b) ||
  ((robot_id a =? robot_id b) && (frame_id a <? frame_id b)).

(** DPGO_types.h:131-141 [class EdgeID] *)
Record EdgeID := mkEdgeID { src_id : PoseID; dst_id : PoseID }.

(** DPGO_types.h:137-140 [EdgeID::operator==] *)
Definition edgeid_eqb (a b : EdgeID) : bool :=
  poseid_eqb (src_id a) (src_id b) && poseid_eqb (dst_id a) (dst_id b).

(** DPGO_types.h:142-152: classification of an edge id; [frame_id + 1] is
    unsigned 32-bit arithmetic and wraps. *)
Definition edge_isOdometry (e : EdgeID) : bool :=
  (robot_id (src_id e) =? robot_id (dst_id e)) &&
  (u32 (frame_id (src_id e) + 1) =? frame_id (dst_id e)).
Definition edge_isPrivate (e : EdgeID) : bool :=
  (robot_id (src_id e) =? robot_id (dst_id e)) &&
  negb (u32 (frame_id (src_id e) + 1) =? frame_id (dst_id e)).
Definition edge_isShared (e : EdgeID) : bool :=
  negb (robot_id (src_id e) =? robot_id (dst_id e)).

(** Lexicographic comparison of tuples, as [std::tuple::operator<]. *)
Fixpoint lex_ltb (a b : list N) : bool :=
  match a, b with
  | x :: a', y :: b' => (x <? y) || ((x =? y) && lex_ltb a' b')
  | _, _ => false
  end.

(** DPGO_types.h:154-167 [CompareEdgeID]: the tuple order is
    (src robot, dst robot, src frame, dst frame). *)
Definition edge_tuple (e : EdgeID) : list N :=
  [robot_id (src_id e); robot_id (dst_id e); frame_id (src_id e); frame_id (dst_id e)].
Definition edge_ltb (a b : EdgeID) : bool := lex_ltb (edge_tuple a) (edge_tuple b).

(** DPGO_types.h:169-191 [HashEdgeID]: folds [boost::hash_combine] over the four
    members; [combine] and [hv] (boost::hash_value) are external. *)
Definition edge_hash (combine : N -> N -> N) (hv : N -> N) (e : EdgeID) : N :=
  fold_left (fun seed x => combine seed (hv x)) (edge_tuple e) 0.

(** RelativeSEMeasurement.h:21-71 [struct RelativeSEMeasurement].  Robot and
    pose indices are [size_t]. *)
Record Meas (S : Type) := mkMeas {
  mr1 : N; mr2 : N; mp1 : N; mp2 : N;
  mR : Mx S; mt : Mx S; mkappa : S; mtau : S;
  mfixed : bool; mweight : S }.
Arguments mkMeas {S}. Arguments mr1 {S}. Arguments mr2 {S}. Arguments mp1 {S}.
Arguments mp2 {S}. Arguments mR {S}. Arguments mt {S}. Arguments mkappa {S}.
Arguments mtau {S}. Arguments mfixed {S}. Arguments mweight {S}.

Definition set_mweight {S} (w : S) (m : Meas S) : Meas S :=
  mkMeas (mr1 m) (mr2 m) (mp1 m) (mp2 m) (mR m) (mt m) (mkappa m) (mtau m) (mfixed m) w.
Definition set_mfixed {S} (b : bool) (m : Meas S) : Meas S :=
  mkMeas (mr1 m) (mr2 m) (mp1 m) (mp2 m) (mR m) (mt m) (mkappa m) (mtau m) b (mweight m).

(** RelativeSEMeasurement.h:56-71: the constructor sets fixedWeight = false, weight = 1. *)
Definition new_meas {S} `{Num S} r1 r2 p1 p2 (R t : Mx S) (kappa tau : S) : Meas S :=
  mkMeas r1 r2 p1 p2 R t kappa tau false n1.

(** Edge id of a measurement as used by the pose graph (PoseGraph.cpp:85-86, 98). *)
Definition meas_src {S} (m : Meas S) : PoseID := pose_of (mr1 m) (mp1 m).
Definition meas_dst {S} (m : Meas S) : PoseID := pose_of (mr2 m) (mp2 m).
Definition meas_edge {S} (m : Meas S) : EdgeID := mkEdgeID (meas_src m) (meas_dst m).
