(** The multi-robot example: partition of the dataset.
    Source: examples/MultiRobotExample.cpp *)
From Coq Require Import List NArith Bool.
From Verif Require Import Base SMap Num ModelTypes.
Import ListNotations.
Local Open Scope N_scope.
Local Open Scope res_scope.

(** Lines 53-55, 71: [n] and [num_poses_per_robot] are [unsigned]; the division is
    in [size_t]. *)
Definition ex_n (num_poses : N) : N := u32 num_poses.
Definition per_robot (num_poses num_robots : N) : N := u32 (num_poses / num_robots).

(** Lines 80-82, repeated at 156-158, 211-213, 240-242: the range of a robot. *)
Definition start_idx (npr robot : N) : N := u32 (robot * npr).
Definition end_idx (n npr num_robots robot : N) : N :=
  if robot =? num_robots - 1 then n else u32 (u32 (robot + 1) * npr).

(** [for (unsigned idx = s; idx < e; ++idx)] *)
Definition range (s e : N) : list N := map (fun k => s + N.of_nat k) (seq 0 (N.to_nat (e - s))).

(** Lines 78-88: [PoseMap] *)
Definition pose_map (n npr num_robots : N) : list (N * PoseID) :=
  fold_left (fun M robot =>
    let s := start_idx npr robot in
    fold_left (fun M idx => mset N.ltb idx (mkPoseID robot (idx - s)) M) (range s (end_idx n npr num_robots robot)) M)
    (range 0 num_robots) [].

(** [PoseMap[p]]: [p] is converted to [unsigned]; a missing key yields (and
    stores) the default [PoseID(0, 0)]. *)
Definition pm_get (M : list (N * PoseID)) (p : N) : PoseID :=
  match mfind N.ltb (u32 p) M with Some q => q | None => mkPoseID 0 0 end.

Section S.
Context {S : Type} `{Num S}.

(** [v[k].push_back(m)]; a bad index is undefined behaviour. *)
Fixpoint push_at (k : nat) (m : Meas S) (v : list (list (Meas S))) : res (list (list (Meas S))) :=
  match v, k with
  | [], _ => UB
  | l :: v', O => Ok ((l ++ [m]) :: v')
  | l :: v', Datatypes.S k' => do v'' <- push_at k' m v'; Ok (l :: v'')
  end.

Record Split := mkSplit { sp_odom : list (list (Meas S)); sp_priv : list (list (Meas S)); sp_shared : list (list (Meas S)) }.

(** Lines 93-119, one measurement *)
Definition split_step (M : list (N * PoseID)) (st : Split) (mIn : Meas S) : res Split :=
  let src := pm_get M (mp1 mIn) in
  let dst := pm_get M (mp2 mIn) in
  let m := new_meas (robot_id src) (robot_id dst) (frame_id src) (frame_id dst) (mR mIn) (mt mIn) (mkappa mIn) (mtau mIn) in
  if robot_id src =? robot_id dst then
    if u32 (frame_id src + 1) =? frame_id dst
    then do v <- push_at (N.to_nat (robot_id src)) m (sp_odom st); Ok (mkSplit v (sp_priv st) (sp_shared st))
    else do v <- push_at (N.to_nat (robot_id src)) m (sp_priv st); Ok (mkSplit (sp_odom st) v (sp_shared st))
  else
    do v <- push_at (N.to_nat (robot_id src)) m (sp_shared st);
    do v <- push_at (N.to_nat (robot_id dst)) m v;
    Ok (mkSplit (sp_odom st) (sp_priv st) v).

(** Lines 71-119.  [None]: more robots than poses, the program exits.  A
    non-positive number of robots exits earlier (lines 37-40). *)
Definition split_dataset (num_poses num_robots : N) (dataset : list (Meas S)) : res (option Split) :=
  let npr := per_robot num_poses num_robots in
  if npr =? 0 then Ok None else
  let M := pose_map (ex_n num_poses) npr num_robots in
  let e := repeat [] (N.to_nat num_robots) in
  do st <- foldM (split_step M) (mkSplit e e e) dataset;
  Ok (Some st).

(** Lines 155-160: the columns of the central trajectory given to a robot. *)
Definition robot_cols (d : nat) (num_poses num_robots robot : N) : nat * nat :=
  let npr := per_robot num_poses num_robots in
  let s := start_idx npr robot in
  let e := end_idx (ex_n num_poses) npr num_robots robot in
  (N.to_nat s * Datatypes.S d, N.to_nat (e - s) * Datatypes.S d)%nat.
Definition robot_block (d r : nat) (num_poses num_robots robot : N) (X : Mx S) : Mx S :=
  let '(c, w) := robot_cols d num_poses num_robots robot in mblock X 0 c r w.
(** Lines 209-219: the robots' trajectories written back side by side; a block of
    another size is undefined (an Eigen assertion). *)
Definition form_central (d r : nat) (num_poses num_robots : N) (Xs : N -> option (Mx S)) (Xopt : Mx S) : res (Mx S) :=
  foldM (fun X robot =>
    let '(c, w) := robot_cols d num_poses num_robots robot in
    match Xs robot with
    | Some B => require (Nat.eqb (mrows B) r && Nat.eqb (mcols B) w && Nat.leb (c + w) (mcols X)) (Ok (msetblock X 0 c B))
    | None => Ok X
    end) Xopt (range 0 num_robots).

(** Lines 233-247: the next robot has the largest gradient norm, the first one
    of several ([std::max_element]). *)
Fixpoint max_element (best : nat) (bv : S) (k : nat) (l : list S) : nat :=
  match l with
  | [] => best
  | x :: l' => if nltb bv x then max_element k x (Datatypes.S k) l' else max_element best bv (Datatypes.S k) l'
  end.
Definition max_index (l : list S) : nat := match l with [] => O | x :: l' => max_element 0 x 1 l' end.
Definition select_next (neighbors : list N) (selected : N) (norms : list S) : N :=
  match neighbors with [] => selected | _ => N.of_nat (max_index norms) end.
End S.
Arguments Split : clear implicits.
