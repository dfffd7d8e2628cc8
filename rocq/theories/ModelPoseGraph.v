(** Pose graph of one robot.
    Source: include/DPGO/PoseGraph.h, src/PoseGraph.cpp, and from
    src/DPGO_utils.cpp the connection Laplacian.

    Simplifications: timers are omitted; [Q_] is kept as a coefficient function
    with its size instead of a compressed sparse matrix; the preconditioner is
    represented by the matrix that was factorised, the success of the sparse
    Cholesky factorisation being an argument.  Products of sizes such as
    (d+1)*n are computed without 32-bit wrap (a matrix that large cannot be
    allocated). *)
From Coq Require Import List NArith ZArith Bool.
From Verif Require Import Base SMap Num ModelTypes.
Import ListNotations.
Local Open Scope N_scope.
Local Open Scope res_scope.

Section PoseGraph.
Context {S : Type} `{Num S}.

(** PoseGraph.h:292-388, protected and private members. *)
Record PoseGraph := mkPG {
  pg_id : N;   (* id_ *)
  pg_r : nat;   (* r_ *)
  pg_d : nat;   (* d_ *)
  pg_n : N;   (* n_ *)
  pg_odom : list (Meas S);   (* odometry_ *)
  pg_priv : list (Meas S);   (* private_lcs_ *)
  pg_shared : list (Meas S);   (* shared_lcs_ *)
  pg_lpub : list PoseID;   (* local_shared_pose_ids_ *)
  pg_npub : list PoseID;   (* nbr_shared_pose_ids_ *)
  pg_nbrs : list N;   (* nbr_robot_ids_ *)
  pg_active : list (N * bool);   (* neighbor_active_ *)
  pg_nposes : list (PoseID * Mx S);   (* neighbor_poses_ *)
  pg_Q : option (Mx S);   (* Q_ *)
  pg_G : option (Mx S);   (* G_ *)
  pg_precon : option (Mx S);   (* precon_ *)
  pg_index : list (EdgeID * nat);   (* edge_id_to_index_ *)
  pg_useinact : bool;   (* use_inactive_neighbors_ *)
  pg_priors : list (N * Mx S) }.   (* priors_ *)

Definition set_pg_id (x : PoseGraph) (v : N) : PoseGraph :=
  mkPG v (pg_r x) (pg_d x) (pg_n x) (pg_odom x) (pg_priv x) (pg_shared x) (pg_lpub x) (pg_npub x) (pg_nbrs x) (pg_active x) (pg_nposes x) (pg_Q x) (pg_G x) (pg_precon x) (pg_index x) (pg_useinact x) (pg_priors x).
Definition set_pg_r (x : PoseGraph) (v : nat) : PoseGraph :=
  mkPG (pg_id x) v (pg_d x) (pg_n x) (pg_odom x) (pg_priv x) (pg_shared x) (pg_lpub x) (pg_npub x) (pg_nbrs x) (pg_active x) (pg_nposes x) (pg_Q x) (pg_G x) (pg_precon x) (pg_index x) (pg_useinact x) (pg_priors x).
Definition set_pg_d (x : PoseGraph) (v : nat) : PoseGraph :=
  mkPG (pg_id x) (pg_r x) v (pg_n x) (pg_odom x) (pg_priv x) (pg_shared x) (pg_lpub x) (pg_npub x) (pg_nbrs x) (pg_active x) (pg_nposes x) (pg_Q x) (pg_G x) (pg_precon x) (pg_index x) (pg_useinact x) (pg_priors x).
Definition set_pg_n (x : PoseGraph) (v : N) : PoseGraph :=
  mkPG (pg_id x) (pg_r x) (pg_d x) v (pg_odom x) (pg_priv x) (pg_shared x) (pg_lpub x) (pg_npub x) (pg_nbrs x) (pg_active x) (pg_nposes x) (pg_Q x) (pg_G x) (pg_precon x) (pg_index x) (pg_useinact x) (pg_priors x).
Definition set_pg_odom (x : PoseGraph) (v : list (Meas S)) : PoseGraph :=
  mkPG (pg_id x) (pg_r x) (pg_d x) (pg_n x) v (pg_priv x) (pg_shared x) (pg_lpub x) (pg_npub x) (pg_nbrs x) (pg_active x) (pg_nposes x) (pg_Q x) (pg_G x) (pg_precon x) (pg_index x) (pg_useinact x) (pg_priors x).
Definition set_pg_priv (x : PoseGraph) (v : list (Meas S)) : PoseGraph :=
  mkPG (pg_id x) (pg_r x) (pg_d x) (pg_n x) (pg_odom x) v (pg_shared x) (pg_lpub x) (pg_npub x) (pg_nbrs x) (pg_active x) (pg_nposes x) (pg_Q x) (pg_G x) (pg_precon x) (pg_index x) (pg_useinact x) (pg_priors x).
Definition set_pg_shared (x : PoseGraph) (v : list (Meas S)) : PoseGraph :=
  mkPG (pg_id x) (pg_r x) (pg_d x) (pg_n x) (pg_odom x) (pg_priv x) v (pg_lpub x) (pg_npub x) (pg_nbrs x) (pg_active x) (pg_nposes x) (pg_Q x) (pg_G x) (pg_precon x) (pg_index x) (pg_useinact x) (pg_priors x).
Definition set_pg_lpub (x : PoseGraph) (v : list PoseID) : PoseGraph :=
  mkPG (pg_id x) (pg_r x) (pg_d x) (pg_n x) (pg_odom x) (pg_priv x) (pg_shared x) v (pg_npub x) (pg_nbrs x) (pg_active x) (pg_nposes x) (pg_Q x) (pg_G x) (pg_precon x) (pg_index x) (pg_useinact x) (pg_priors x).
Definition set_pg_npub (x : PoseGraph) (v : list PoseID) : PoseGraph :=
  mkPG (pg_id x) (pg_r x) (pg_d x) (pg_n x) (pg_odom x) (pg_priv x) (pg_shared x) (pg_lpub x) v (pg_nbrs x) (pg_active x) (pg_nposes x) (pg_Q x) (pg_G x) (pg_precon x) (pg_index x) (pg_useinact x) (pg_priors x).
Definition set_pg_nbrs (x : PoseGraph) (v : list N) : PoseGraph :=
  mkPG (pg_id x) (pg_r x) (pg_d x) (pg_n x) (pg_odom x) (pg_priv x) (pg_shared x) (pg_lpub x) (pg_npub x) v (pg_active x) (pg_nposes x) (pg_Q x) (pg_G x) (pg_precon x) (pg_index x) (pg_useinact x) (pg_priors x).
Definition set_pg_active (x : PoseGraph) (v : list (N * bool)) : PoseGraph :=
  mkPG (pg_id x) (pg_r x) (pg_d x) (pg_n x) (pg_odom x) (pg_priv x) (pg_shared x) (pg_lpub x) (pg_npub x) (pg_nbrs x) v (pg_nposes x) (pg_Q x) (pg_G x) (pg_precon x) (pg_index x) (pg_useinact x) (pg_priors x).
Definition set_pg_nposes (x : PoseGraph) (v : list (PoseID * Mx S)) : PoseGraph :=
  mkPG (pg_id x) (pg_r x) (pg_d x) (pg_n x) (pg_odom x) (pg_priv x) (pg_shared x) (pg_lpub x) (pg_npub x) (pg_nbrs x) (pg_active x) v (pg_Q x) (pg_G x) (pg_precon x) (pg_index x) (pg_useinact x) (pg_priors x).
Definition set_pg_Q (x : PoseGraph) (v : option (Mx S)) : PoseGraph :=
  mkPG (pg_id x) (pg_r x) (pg_d x) (pg_n x) (pg_odom x) (pg_priv x) (pg_shared x) (pg_lpub x) (pg_npub x) (pg_nbrs x) (pg_active x) (pg_nposes x) v (pg_G x) (pg_precon x) (pg_index x) (pg_useinact x) (pg_priors x).
Definition set_pg_G (x : PoseGraph) (v : option (Mx S)) : PoseGraph :=
  mkPG (pg_id x) (pg_r x) (pg_d x) (pg_n x) (pg_odom x) (pg_priv x) (pg_shared x) (pg_lpub x) (pg_npub x) (pg_nbrs x) (pg_active x) (pg_nposes x) (pg_Q x) v (pg_precon x) (pg_index x) (pg_useinact x) (pg_priors x).
Definition set_pg_precon (x : PoseGraph) (v : option (Mx S)) : PoseGraph :=
  mkPG (pg_id x) (pg_r x) (pg_d x) (pg_n x) (pg_odom x) (pg_priv x) (pg_shared x) (pg_lpub x) (pg_npub x) (pg_nbrs x) (pg_active x) (pg_nposes x) (pg_Q x) (pg_G x) v (pg_index x) (pg_useinact x) (pg_priors x).
Definition set_pg_index (x : PoseGraph) (v : list (EdgeID * nat)) : PoseGraph :=
  mkPG (pg_id x) (pg_r x) (pg_d x) (pg_n x) (pg_odom x) (pg_priv x) (pg_shared x) (pg_lpub x) (pg_npub x) (pg_nbrs x) (pg_active x) (pg_nposes x) (pg_Q x) (pg_G x) (pg_precon x) v (pg_useinact x) (pg_priors x).
Definition set_pg_useinact (x : PoseGraph) (v : bool) : PoseGraph :=
  mkPG (pg_id x) (pg_r x) (pg_d x) (pg_n x) (pg_odom x) (pg_priv x) (pg_shared x) (pg_lpub x) (pg_npub x) (pg_nbrs x) (pg_active x) (pg_nposes x) (pg_Q x) (pg_G x) (pg_precon x) (pg_index x) v (pg_priors x).
Definition set_pg_priors (x : PoseGraph) (v : list (N * Mx S)) : PoseGraph :=
  mkPG (pg_id x) (pg_r x) (pg_d x) (pg_n x) (pg_odom x) (pg_priv x) (pg_shared x) (pg_lpub x) (pg_npub x) (pg_nbrs x) (pg_active x) (pg_nposes x) (pg_Q x) (pg_G x) (pg_precon x) (pg_index x) (pg_useinact x) v.

(** PoseGraph.cpp:17-18, prior weights. *)
Definition prior_kappa : S := nofZ 10000%Z.
Definition prior_tau : S := nofZ 100%Z.

(** PoseGraph.cpp:352-355 [clearQuadraticMatrix] *)
Definition clearQuadraticMatrix (g : PoseGraph) : PoseGraph :=
  set_pg_precon (set_pg_Q g None) None.
(** PoseGraph.cpp:364-366 [clearLinearMatrix] *)
Definition clearLinearMatrix (g : PoseGraph) : PoseGraph := set_pg_G g None.
(** PoseGraph.cpp:376-379 [clearDataMatrices] *)
Definition clearDataMatrices (g : PoseGraph) : PoseGraph :=
  clearLinearMatrix (clearQuadraticMatrix g).
(** PoseGraph.cpp:52-55 [clearNeighborPoses] *)
Definition clearNeighborPoses (g : PoseGraph) : PoseGraph :=
  set_pg_G (set_pg_nposes g []) None.
(** PoseGraph.cpp:172-174 [clearPriors] *)
Definition clearPriors (g : PoseGraph) : PoseGraph := set_pg_priors g [].

(** PoseGraph.cpp:27-41 [empty] *)
Definition pg_empty (g : PoseGraph) : PoseGraph :=
  let g := set_pg_n g 0 in
  let g := set_pg_index g [] in
  let g := set_pg_odom g [] in
  let g := set_pg_priv g [] in
  let g := set_pg_shared g [] in
  let g := set_pg_lpub g [] in
  let g := set_pg_npub g [] in
  let g := set_pg_nbrs g [] in
  let g := set_pg_active g [] in
  clearPriors (clearDataMatrices (clearNeighborPoses g)).

(** PoseGraph.cpp:14-21 constructor ([CHECK(r >= d)]). *)
Definition newPoseGraph (id : N) (r d : nat) : res PoseGraph :=
  check (Nat.leb d r)
    (Ok (pg_empty (mkPG id r d 0 [] [] [] [] [] [] [] [] None None None [] false []))).

(** PoseGraph.cpp:43-50 [reset] *)
Definition pg_reset (g : PoseGraph) : PoseGraph :=
  let g := clearPriors (clearDataMatrices (clearNeighborPoses g)) in
  set_pg_active g (fold_left (fun a k => mset N.ltb k true a) (pg_nbrs g) (pg_active g)).

(** PoseGraph.cpp:213-216 [hasMeasurement] *)
Definition hasMeasurement (g : PoseGraph) (src dst : PoseID) : bool :=
  match mfind edge_ltb (mkEdgeID src dst) (pg_index g) with Some _ => true | None => false end.

(** The dimension CHECKs, PoseGraph.cpp:94-95, 111-112, 127-128. *)
Definition dims_ok (g : PoseGraph) (m : Meas S) : bool :=
  (Nat.eqb (mrows (mR m)) (pg_d g) && Nat.eqb (mcols (mR m)) (pg_d g)) &&
  (Nat.eqb (mrows (mt m)) (pg_d g) && Nat.eqb (mcols (mt m)) 1).

(** PoseGraph.cpp:83-100 [addOdometry] *)
Definition addOdometry (g : PoseGraph) (m : Meas S) : res PoseGraph :=
  if hasMeasurement g (meas_src m) (meas_dst m) then Ok g else
  check (mr1 m =? pg_id g) (
  check (mr2 m =? pg_id g) (
  check (u64 (mp1 m + 1) =? mp2 m) (
  check (dims_ok g m) (
    let g := set_pg_n g (N.max (pg_n g) (u32 (u32 (mp2 m) + 1))) in
    let g := set_pg_odom g (pg_odom g ++ [m]) in
    Ok (set_pg_index g
          (memplace edge_ltb (meas_edge m) (length (pg_odom g) - 1)%nat (pg_index g))))))).

(** PoseGraph.cpp:102-118 [addPrivateLoopClosure] *)
Definition addPrivateLoopClosure (g : PoseGraph) (m : Meas S) : res PoseGraph :=
  if hasMeasurement g (meas_src m) (meas_dst m) then Ok g else
  check (mr1 m =? pg_id g) (
  check (mr2 m =? pg_id g) (
  check (dims_ok g m) (
    let g := set_pg_n g (N.max (pg_n g) (u32 (N.max (u64 (mp1 m + 1)) (u64 (mp2 m + 1))))) in
    let g := set_pg_priv g (pg_priv g ++ [m]) in
    Ok (set_pg_index g
          (memplace edge_ltb (meas_edge m) (length (pg_priv g) - 1)%nat (pg_index g)))))).

(** Lines 131-135 and 138-142: record local pose [p] and remote pose [(r,q)]. *)
Definition note_shared (g : PoseGraph) (own p r q : N) : PoseGraph :=
  let g := set_pg_n g (N.max (pg_n g) (u32 (u32 p + 1))) in
  let g := set_pg_lpub g (sins pose_ltb (pose_of own p) (pg_lpub g)) in
  let g := set_pg_npub g (sins pose_ltb (pose_of r q) (pg_npub g)) in
  let g := set_pg_nbrs g (sins N.ltb (u32 r) (pg_nbrs g)) in
  set_pg_active g (mset N.ltb (u32 r) true (pg_active g)).

(** PoseGraph.cpp:120-148 [addSharedLoopClosure] *)
Definition addSharedLoopClosure (g : PoseGraph) (m : Meas S) : res PoseGraph :=
  if hasMeasurement g (meas_src m) (meas_dst m) then Ok g else
  check (dims_ok g m) (
  do g <- (if mr1 m =? pg_id g
           then check (negb (mr2 m =? pg_id g))
                  (Ok (note_shared g (mr1 m) (mp1 m) (mr2 m) (mp2 m)))
           else check (mr2 m =? pg_id g)
                  (Ok (note_shared g (mr2 m) (mp2 m) (mr1 m) (mp1 m))));
  let g := set_pg_shared g (pg_shared g ++ [m]) in
  Ok (set_pg_index g
        (memplace edge_ltb (meas_edge m) (length (pg_shared g) - 1)%nat (pg_index g)))).

(** PoseGraph.cpp:68-81 [addMeasurement] *)
Definition addMeasurement (g : PoseGraph) (m : Meas S) : res PoseGraph :=
  if negb (mr1 m =? pg_id g) && negb (mr2 m =? pg_id g) then Ok g
  else if (mr1 m =? pg_id g) && (mr2 m =? pg_id g)
  then if u64 (mp1 m + 1) =? mp2 m then addOdometry g m else addPrivateLoopClosure g m
  else addSharedLoopClosure g m.

(** PoseGraph.cpp:61-66 [setMeasurements] *)
Definition setMeasurements (g : PoseGraph) (ms : list (Meas S)) : res PoseGraph :=
  foldM addMeasurement (pg_empty g) ms.

(** PoseGraph.cpp:57-59, PoseGraph.h:74-84: counts. *)
Definition numMeasurements (g : PoseGraph) : nat :=
  (length (pg_odom g) + length (pg_priv g) + length (pg_shared g))%nat.

(** PoseGraph.cpp:150-157 [sharedLoopClosuresWithRobot] *)
Definition sharedLoopClosuresWithRobot (g : PoseGraph) (k : N) : list (Meas S) :=
  filter (fun m => (mr1 m =? k) || (mr2 m =? k)) (pg_shared g).

(** PoseGraph.cpp:159-164 [measurements], 166-170 [localMeasurements] *)
Definition measurements (g : PoseGraph) : list (Meas S) :=
  pg_odom g ++ pg_priv g ++ pg_shared g.
Definition localMeasurements (g : PoseGraph) : list (Meas S) := pg_odom g ++ pg_priv g.

(** PoseGraph.cpp:176-181 [setPrior]; Q_ and G_ are not cleared. *)
Definition setPrior (g : PoseGraph) (index : N) (Xi : Mx S) : res PoseGraph :=
  check (index <? pg_n g) (
  check (Nat.eqb (Datatypes.S (pg_d g)) (mcols Xi)) (
  check (Nat.eqb (pg_r g) (mrows Xi)) (
    Ok (set_pg_priors g (mset N.ltb index Xi (pg_priors g)))))).

(** PoseGraph.cpp:183-186 [setNeighborPoses]; only G_ is cleared. *)
Definition setNeighborPoses (g : PoseGraph) (d : list (PoseID * Mx S)) : PoseGraph :=
  set_pg_G (set_pg_nposes g d) None.

(** PoseGraph.cpp:188-190 [hasNeighbor] *)
Definition hasNeighbor (g : PoseGraph) (k : N) : bool := smem N.ltb k (pg_nbrs g).

(** PoseGraph.cpp:192-197 [isNeighborActive]; [map::at] throws when absent. *)
Definition isNeighborActive (g : PoseGraph) (k : N) : res bool :=
  if negb (hasNeighbor g k) then Ok false
  else match mfind N.ltb k (pg_active g) with Some b => Ok b | None => Abort end.

(** PoseGraph.cpp:199-207 [setNeighborActive] *)
Definition setNeighborActive (g : PoseGraph) (k : N) (active : bool) : res PoseGraph :=
  if negb (hasNeighbor g k) then Ok g
  else match mfind N.ltb k (pg_active g) with
       | None => Abort
       | Some b =>
           let g := if eqb b active then g else clearDataMatrices g in
           Ok (set_pg_active g (mset N.ltb k active (pg_active g)))
       end.

(** PoseGraph.cpp:209-211 [requireNeighborPose] *)
Definition requireNeighborPose (g : PoseGraph) (p : PoseID) : bool :=
  smem pose_ltb p (pg_npub g).

(** A pointer into one of the three measurement vectors. *)
Inductive mref := ROdom (i : nat) | RPriv (i : nat) | RShared (i : nat).

Definition deref (g : PoseGraph) (p : mref) : option (Meas S) :=
  match p with
  | ROdom i => nth_error (pg_odom g) i
  | RPriv i => nth_error (pg_priv g) i
  | RShared i => nth_error (pg_shared g) i
  end.

(** Write through such a pointer. *)
Definition modify (g : PoseGraph) (p : mref) (f : Meas S -> Meas S) : PoseGraph :=
  match p with
  | ROdom i => set_pg_odom g (list_update (pg_odom g) i f)
  | RPriv i => set_pg_priv g (list_update (pg_priv g) i f)
  | RShared i => set_pg_shared g (list_update (pg_shared g) i f)
  end.

(** PoseGraph.cpp:218-239 [findMeasurement]; the result is a pointer or null.
    [&v[index]] outside the vector is undefined; the sanity CHECKs compare the
    64-bit ids of the measurement with the 32-bit ids of the query. *)
Definition findMeasurement (g : PoseGraph) (src dst : PoseID) : res (option mref) :=
  let e := mkEdgeID src dst in
  match mfind edge_ltb e (pg_index g) with
  | None => Ok None
  | Some i =>
      let p := if edge_isOdometry e then ROdom i
               else if edge_isPrivate e then RPriv i else RShared i in
      match deref g p with
      | None => UB
      | Some m =>
          check (mr1 m =? robot_id src) (
          check (mp1 m =? frame_id src) (
          check (mr2 m =? robot_id dst) (
          check (mp2 m =? frame_id dst) (Ok (Some p)))))
      end
  end.

(** All positions of a vector. *)
Definition privRefs (g : PoseGraph) : list mref := map RPriv (seq 0 (length (pg_priv g))).
Definition sharedRefs (g : PoseGraph) : list mref := map RShared (seq 0 (length (pg_shared g))).

(** PoseGraph.cpp:241-250 [allLoopClosures] *)
Definition allLoopClosures (g : PoseGraph) : list mref := privRefs g ++ sharedRefs g.

(** PoseGraph.cpp:252-260 [activeNeighborIDs], 262-264 [numActiveNeighbors] *)
Definition activeNeighborIDs (g : PoseGraph) : res (list N) :=
  filterM (fun k => isNeighborActive g k) (pg_nbrs g).
Definition numActiveNeighbors (g : PoseGraph) : res nat :=
  do l <- activeNeighborIDs g; Ok (length l).

(** PoseGraph.cpp:266-274 [activeNeighborPublicPoseIDs] *)
Definition activeNeighborPublicPoseIDs (g : PoseGraph) : res (list PoseID) :=
  filterM (fun p => isNeighborActive g (robot_id p)) (pg_npub g).

(** The loop condition of PoseGraph.cpp:282-287: pushed or not.  The argument of
    [isNeighborActive] is [unsigned], hence the truncation. *)
Definition lc_active_cond (g : PoseGraph) (m : Meas S) : res bool :=
  do c1 <- (if mr1 m =? pg_id g then isNeighborActive g (u32 (mr2 m)) else Ok false);
  if c1 then Ok true
  else if mr2 m =? pg_id g then isNeighborActive g (u32 (mr1 m)) else Ok false.

(** The loop condition of PoseGraph.cpp:295-300. *)
Definition lc_inactive_cond (g : PoseGraph) (m : Meas S) : res bool :=
  do c1 <- (if mr1 m =? pg_id g
            then do b <- isNeighborActive g (u32 (mr2 m)); Ok (negb b) else Ok false);
  if c1 then Ok true
  else if mr2 m =? pg_id g
       then do b <- isNeighborActive g (u32 (mr1 m)); Ok (negb b) else Ok false.

Definition shared_filter (g : PoseGraph) (cond : Meas S -> res bool) : res (list mref) :=
  filterM (fun p => match deref g p with Some m => cond m | None => UB end) (sharedRefs g).

(** PoseGraph.cpp:276-290 [activeLoopClosures] *)
Definition activeLoopClosures (g : PoseGraph) : res (list mref) :=
  do l <- shared_filter g (lc_active_cond g); Ok (privRefs g ++ l).

(** PoseGraph.cpp:292-303 [inactiveLoopClosures] *)
Definition inactiveLoopClosures (g : PoseGraph) : res (list mref) :=
  shared_filter g (lc_inactive_cond g).

(** PoseGraph.cpp:305-343 [statistics].  The double counters count below 2^53,
    so they are kept as naturals; undecided = total - accept - reject. *)
Record Statistics := mkStats {
  total_lc : nat; accept_lc : nat; reject_lc : nat; undecided_lc : nat }.

Definition stat_step (tar : nat * nat * nat) (m : Meas S) : nat * nat * nat :=
  let '(t, a, r) := tar in
  if neqb (mweight m) n1 then (t + 1, a + 1, r)%nat
  else if neqb (mweight m) n0 then (t + 1, a, r + 1)%nat
  else (t + 1, a, r)%nat.

(** Lines 320-334: shared edges with an inactive neighbour are skipped. *)
Definition stat_skip (g : PoseGraph) (m : Meas S) : res bool :=
  do c1 <- (if mr1 m =? pg_id g
            then do b <- isNeighborActive g (u32 (mr2 m)); Ok (negb b) else Ok false);
  if c1 then Ok true
  else if mr2 m =? pg_id g
       then do b <- isNeighborActive g (u32 (mr1 m)); Ok (negb b) else Ok false.

Definition statistics (g : PoseGraph) : res Statistics :=
  let s := fold_left stat_step (pg_priv g) (0, 0, 0)%nat in
  do s <- foldM (fun s m => do sk <- stat_skip g m; Ok (if sk then s else stat_step s m))
            s (pg_shared g);
  let '(t, a, r) := s in Ok (mkStats t a r (t - a - r)).

(** ** Data matrices *)

(** [SparseMatrix::insert] / [setFromTriplets] data: (row, column, value). *)
Definition trip : Type := (nat * nat * S)%type.

(** Coefficient of a matrix given by triplets (repeated positions are summed,
    as [setFromTriplets] does). *)
Definition spcoef (ts : list trip) (i j : nat) : S :=
  nsumL (fun t => match t with (a, b, v) => if Nat.eqb a i && Nat.eqb b j then v else n0 end) ts.

(** [insert] at an occupied position is undefined. *)
Fixpoint positions_unique (ts : list trip) : bool :=
  match ts with
  | [] => true
  | (i, j, _) :: ts' =>
      negb (existsb (fun t => match t with (a, b, _) => Nat.eqb a i && Nat.eqb b j end) ts')
      && positions_unique ts'
  end.
Definition in_range (rows cols : nat) (ts : list trip) : bool :=
  forallb (fun t => match t with (i, j, _) => Nat.ltb i rows && Nat.ltb j cols end) ts.

(** DPGO_utils.cpp:302-324: entries inserted for measurement number [k]. *)
Definition incidence_entries (d k : nat) (m : Meas S) : list trip :=
  let dh := Datatypes.S d in
  let i := N.to_nat (mp1 m) in
  let j := N.to_nat (mp2 m) in
  (flat_map (fun c => map (fun r => (i * dh + r, k * dh + c, nopp (mR m r c)))%nat (seq 0 d)) (seq 0 d))
  ++ map (fun r => (i * dh + r, k * dh + d, nopp (mt m r 0%nat)))%nat (seq 0 d)
  ++ [((i * dh + d)%nat, (k * dh + d)%nat, nopp n1)]
  ++ map (fun r => (j * dh + r, k * dh + r, n1))%nat (seq 0 (Datatypes.S d)).

(** DPGO_utils.cpp:326-329: diagonal weights of measurement number [k]. *)
Definition weight_entries (d k : nat) (m : Meas S) : list (nat * S) :=
  let dh := Datatypes.S d in
  map (fun r => ((k * dh + r)%nat, nmul (mweight m) (mkappa m))) (seq 0 d)
  ++ [((k * dh + d)%nat, nmul (mweight m) (mtau m))].

Fixpoint enum {A B} (k : nat) (f : nat -> A -> list B) (l : list A) : list B :=
  match l with [] => [] | a :: l' => f k a ++ enum (Datatypes.S k) f l' end.

(** DPGO_utils.cpp:281-286: number of poses seen by the edges (1 if none). *)
Definition edges_num_poses (ms : list (Meas S)) : N :=
  fold_left (fun n m => let n := if n <? mp1 m then mp1 m else n in
                        if n <? mp2 m then mp2 m else n) ms 0 + 1.

(** DPGO_utils.cpp:277: dimension read off the first measurement. *)
Definition edges_dim (ms : list (Meas S)) : nat :=
  match ms with [] => 0%nat | m :: _ => (mrows (mt m) * mcols (mt m))%nat end.

(** DPGO_utils.cpp:272-344 [constructConnectionLaplacianSE] = A Omega A^T. *)
Definition constructConnectionLaplacianSE (ms : list (Meas S)) : res (Mx S) :=
  let d := edges_dim ms in
  let n := N.to_nat (edges_num_poses ms) in
  let rows := (Datatypes.S d * n)%nat in
  let cols := (Datatypes.S d * length ms)%nat in
  let A := enum 0 (incidence_entries d) ms in
  let W := enum 0 (weight_entries d) ms in
  require (in_range rows cols A && positions_unique A) (
    let w k := nsumL (fun e => if Nat.eqb (fst e) k then snd e else n0) W in
    Ok (mkMx rows rows (fun i j =>
          nsum cols (fun k => nmul (nmul (spcoef A i k) (w k)) (spcoef A j k))))).

(** PoseGraph.cpp:402-404: homogeneous form of the measurement. *)
Definition hom (d : nat) (m : Meas S) : Mx S :=
  mkMx (Datatypes.S d) (Datatypes.S d) (fun i j =>
    if Nat.ltb i d then (if Nat.ltb j d then mR m i j else mt m i 0%nat)
    else if Nat.eqb j d then n1 else n0).

(** PoseGraph.cpp:407-410, 464-467: diagonal weight matrix. *)
Definition omega (d : nat) (k t : S) : Mx S :=
  mkMx (Datatypes.S d) (Datatypes.S d) (fun i j =>
    if Nat.eqb i j then (if Nat.ltb i d then k else t) else n0).
Definition meas_omega (d : nat) (m : Meas S) : Mx S :=
  omega d (nmul (mweight m) (mkappa m)) (nmul (mweight m) (mtau m)).

(** PoseGraph.cpp:412-458 and 513-563: what happens to a shared edge.  The same
    code is repeated in [constructQ] and [constructG]. *)
Inductive shared_case :=
| Missing                                  (* return false *)
| Skip                                     (* continue *)
| UseOut (idx : N) (Xj : Mx S)             (* outgoing edge, remote pose *)
| UseIn (idx : N) (Xi : Mx S).             (* incoming edge, remote pose *)

Definition shared_status (g : PoseGraph) (m : Meas S) : res shared_case :=
  let decide (nid : PoseID) (nbr : N) (use : Mx S -> shared_case) :=
    let pose := mfind pose_ltb nid (pg_nposes g) in
    do act <- isNeighborActive g (u32 nbr);
    if act
    then match pose with None => Ok Missing | Some X => Ok (use X) end
    else match pose with
         | None => Ok Skip
         | Some X => if negb (pg_useinact g) then Ok Skip else Ok (use X)
         end in
  if mr1 m =? pg_id g
  then check (negb (mr2 m =? pg_id g))
         (decide (pose_of (mr2 m) (mp2 m)) (mr2 m) (UseOut (mp1 m)))
  else check (mr2 m =? pg_id g)
         (decide (pose_of (mr1 m) (mp1 m)) (mr1 m) (UseIn (mp2 m))).

(** [M.block(0, idx*(d+1), rows, d+1) += B]: undefined outside the matrix. *)
Definition add_block (dh : nat) (M : Mx S) (idx : N) (B : Mx S) : res (Mx S) :=
  let j0 := (N.to_nat idx * dh)%nat in
  require (Nat.leb (j0 + dh) (mcols M)) (
    Ok (mkMx (mrows M) (mcols M) (fun i j =>
          if Nat.leb j0 j && Nat.ltb j (j0 + dh)
          then nadd (M i j) (B i (j - j0)%nat) else M i j))).

(** Result of the loop over shared edges: [None] is the early [return false]. *)
Fixpoint shared_loop (g : PoseGraph) (step : Mx S -> Meas S -> shared_case -> res (Mx S))
         (M : Mx S) (ms : list (Meas S)) : res (option (Mx S)) :=
  match ms with
  | [] => Ok (Some M)
  | m :: ms' =>
      do c <- shared_status g m;
      match c with
      | Missing => Ok None
      | Skip => shared_loop g step M ms'
      | _ => do M' <- step M m c; shared_loop g step M' ms'
      end
  end.

(** PoseGraph.cpp:431-434 and 455-457. *)
Definition stepQ (d : nat) (M : Mx S) (m : Meas S) (c : shared_case) : res (Mx S) :=
  match c with
  | UseOut idx _ => add_block (Datatypes.S d) M idx
                      (mmul (mmul (hom d m) (meas_omega d m)) (mtr (hom d m)))
  | UseIn idx _ => add_block (Datatypes.S d) M idx (meas_omega d m)
  | _ => Ok M
  end.

(** PoseGraph.cpp:381-491: the value that [constructQ] stores, if any. *)
Definition buildQ (g : PoseGraph) : res (option (Mx S)) :=
  let d := pg_d g in
  let dh := Datatypes.S d in
  let n := N.to_nat (pg_n g) in
  do QL <- constructConnectionLaplacianSE (localMeasurements g);
  do o <- shared_loop g (stepQ d) (mzero dh (dh * n)) (pg_shared g);
  match o with
  | None => Ok None
  | Some M =>
      do M <- foldM (fun M kv => add_block dh M (fst kv) (omega d prior_kappa prior_tau))
                M (pg_priors g);
      let ts := flat_map (fun idx =>
                  flat_map (fun r => map (fun c =>
                    (idx * dh + r, idx * dh + c, M r (idx * dh + c)))%nat (seq 0 dh)) (seq 0 dh))
                  (seq 0 n) in
      require (in_range (mrows QL) (mcols QL) ts)
        (Ok (Some (mkMx (mrows QL) (mcols QL) (fun i j => nadd (QL i j) (spcoef ts i j)))))
  end.

(** PoseGraph.cpp:533-537 and 558-562. *)
Definition stepG (d : nat) (M : Mx S) (m : Meas S) (c : shared_case) : res (Mx S) :=
  match c with
  | UseOut idx Xj => add_block (Datatypes.S d) M idx
                       (mmul (mmul (mopp Xj) (meas_omega d m)) (mtr (hom d m)))
  | UseIn idx Xi => add_block (Datatypes.S d) M idx
                       (mmul (mmul (mopp Xi) (hom d m)) (meas_omega d m))
  | _ => Ok M
  end.

(** PoseGraph.cpp:493-580: the value that [constructG] stores, if any. *)
Definition buildG (g : PoseGraph) : res (option (Mx S)) :=
  let d := pg_d g in
  let dh := Datatypes.S d in
  let n := N.to_nat (pg_n g) in
  do o <- shared_loop g (stepG d) (mzero (pg_r g) (dh * n)) (pg_shared g);
  match o with
  | None => Ok None
  | Some M =>
      do M <- foldM (fun M kv => add_block dh M (fst kv)
                        (mmul (mopp (snd kv)) (omega d prior_kappa prior_tau))) M (pg_priors g);
      Ok (Some M)
  end.

(** PoseGraph.cpp:381-491 [constructQ], 493-580 [constructG]: store and report. *)
Definition constructQ (g : PoseGraph) : res (PoseGraph * bool) :=
  do o <- buildQ g;
  match o with None => Ok (g, false) | Some Q => Ok (set_pg_Q g (Some Q), true) end.
Definition constructG (g : PoseGraph) : res (PoseGraph * bool) :=
  do o <- buildG g;
  match o with None => Ok (g, false) | Some G => Ok (set_pg_G g (Some G), true) end.

(** PoseGraph.cpp:368-374 [constructDataMatrices] *)
Definition constructDataMatrices (g : PoseGraph) : res (PoseGraph * bool) :=
  do '(g, okQ) <- match pg_Q g with Some _ => Ok (g, true) | None => constructQ g end;
  if negb okQ then Ok (g, false) else
  do '(g, okG) <- match pg_G g with Some _ => Ok (g, true) | None => constructG g end;
  Ok (g, okG).

(** PoseGraph.cpp:345-350 [quadraticMatrix], 357-362 [linearMatrix] *)
Definition quadraticMatrix (g : PoseGraph) : res (PoseGraph * Mx S) :=
  do '(g, _) <- match pg_Q g with Some _ => Ok (g, true) | None => constructQ g end;
  match pg_Q g with Some Q => Ok (g, Q) | None => Abort end.
Definition linearMatrix (g : PoseGraph) : res (PoseGraph * Mx S) :=
  do '(g, _) <- match pg_G g with Some _ => Ok (g, true) | None => constructG g end;
  match pg_G g with Some G => Ok (g, G) | None => Abort end.

(** PoseGraph.cpp:598-613 [constructPreconditioner]: the factorised matrix is
    Q + 0.1 on the diagonal; [chol_ok] tells whether the factorisation succeeds. *)
Definition precon_matrix (Q : Mx S) : Mx S :=
  mkMx (mrows Q) (mcols Q) (fun i j =>
    if Nat.eqb i j then nadd (Q i j) (nlit 1%Z 10%Z) else Q i j).
Definition constructPreconditioner (chol_ok : Mx S -> bool) (g : PoseGraph) : res (PoseGraph * bool) :=
  do '(g, Q) <- quadraticMatrix g;
  let P := precon_matrix Q in
  if chol_ok P then Ok (set_pg_precon g (Some P), true) else Ok (g, false).

(** PoseGraph.cpp:582-586 [hasPreconditioner], 591-596 [preconditioner] *)
Definition hasPreconditioner (chol_ok : Mx S -> bool) (g : PoseGraph) : res (PoseGraph * bool) :=
  do '(g, _) <- match pg_precon g with
                | Some _ => Ok (g, true)
                | None => constructPreconditioner chol_ok g end;
  Ok (g, match pg_precon g with Some _ => true | None => false end).

(** PoseGraph.cpp:615-630 [updatePublicPoseIDs] *)
Definition updatePublicPoseIDs (g : PoseGraph) : res PoseGraph :=
  foldM (fun g m =>
    if mr1 m =? pg_id g
    then check (negb (mr2 m =? pg_id g)) (Ok (
           let g := set_pg_lpub g (sins pose_ltb (pose_of (mr1 m) (mp1 m)) (pg_lpub g)) in
           set_pg_npub g (sins pose_ltb (pose_of (mr2 m) (mp2 m)) (pg_npub g))))
    else check (mr2 m =? pg_id g) (Ok (
           let g := set_pg_lpub g (sins pose_ltb (pose_of (mr2 m) (mp2 m)) (pg_lpub g)) in
           set_pg_npub g (sins pose_ltb (pose_of (mr1 m) (mp1 m)) (pg_npub g)))))
    (set_pg_npub (set_pg_lpub g []) []) (pg_shared g).

(** PoseGraph.cpp:632-635 [useInactiveNeighbors] *)
Definition useInactiveNeighbors (g : PoseGraph) (use : bool) : PoseGraph :=
  clearDataMatrices (set_pg_useinact g use).

(** ** Histories: the public operations of the class as data, so that properties
    can be stated for every sequence of calls.  [PWeight] is a write of the
    weight (and fixed flag) through a pointer returned by [findMeasurement],
    [activeLoopClosures] or [allLoopClosures]. *)
Inductive pgop :=
| PAdd (m : Meas S) | PSetMeas (ms : list (Meas S)) | PEmpty | PReset
| PClearNbr | PSetNbr (d : list (PoseID * Mx S))
| PClearPriors | PSetPrior (i : N) (X : Mx S)
| PActive (k : N) (b : bool) | PUseInactive (b : bool)
| PClearQ | PClearG | PClearData
| PConstruct | PQuadratic | PLinear | PPrecon (chol_ok : Mx S -> bool)
| PUpdatePublic
| PWeight (p : mref) (w : S) (fixed : bool).

Definition pg_step (g : PoseGraph) (o : pgop) : res PoseGraph :=
  match o with
  | PAdd m => addMeasurement g m
  | PSetMeas ms => setMeasurements g ms
  | PEmpty => Ok (pg_empty g)
  | PReset => Ok (pg_reset g)
  | PClearNbr => Ok (clearNeighborPoses g)
  | PSetNbr d => Ok (setNeighborPoses g d)
  | PClearPriors => Ok (clearPriors g)
  | PSetPrior i X => setPrior g i X
  | PActive k b => setNeighborActive g k b
  | PUseInactive b => Ok (useInactiveNeighbors g b)
  | PClearQ => Ok (clearQuadraticMatrix g)
  | PClearG => Ok (clearLinearMatrix g)
  | PClearData => Ok (clearDataMatrices g)
  | PConstruct => do '(g, _) <- constructDataMatrices g; Ok g
  | PQuadratic => do '(g, _) <- quadraticMatrix g; Ok g
  | PLinear => do '(g, _) <- linearMatrix g; Ok g
  | PPrecon c => do '(g, _) <- hasPreconditioner c g; Ok g
  | PUpdatePublic => updatePublicPoseIDs g
  | PWeight p w f => Ok (modify g p (fun m => set_mfixed f (set_mweight w m)))
  end.

Definition pg_run (g : PoseGraph) (os : list pgop) : res PoseGraph := foldM pg_step g os.

End PoseGraph.

Arguments PoseGraph : clear implicits.
Arguments pgop : clear implicits.
Arguments trip : clear implicits.
