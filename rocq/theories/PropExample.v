(** The multi-robot example (C16). *)
From Coq Require Import List NArith ZArith Bool Reals.
From Verif Require Import Base SMap Num ModelTypes ModelPoseGraph ModelAgent ModelExample SpecPoseGraph SpecCost SpecExample ProofsExample ProofsExample2 ProofsExample3.
Import ListNotations.
Local Open Scope N_scope.

(** Every pose has one robot and one local index, and every local index of every
    robot belongs to one pose. *)
Theorem C16_bijection : forall n m, sizes_ok n m ->
  (forall p, p < n -> exists q, mfind N.ltb p (pose_map (ex_n n) (per_robot n m) m) = Some q /\
     robot_id q < m /\ frame_id q < size_of n m (robot_id q) /\ p = robot_id q * (n / m) + frame_id q) /\
  (forall p, n <= p -> mfind N.ltb p (pose_map (ex_n n) (per_robot n m) m) = None) /\
  (forall k l, k < m -> l < size_of n m k -> exists! p, p < n /\ mfind N.ltb p (pose_map (ex_n n) (per_robot n m) m) = Some (mkPoseID k l)).
Proof. exact pose_bijection. Qed.
Print Assumptions C16_bijection.

(** Each robot's lists are exactly the edges concerned, in file order, in local
    names. *)
Theorem C16_edges : forall S (HS : Num S) n m (ds : list (Meas S)), sizes_ok n m -> Forall (edge_in n) ds ->
  exists st, split_dataset n m ds = Ok (Some st) /\
    length (sp_odom st) = N.to_nat m /\ length (sp_priv st) = N.to_nat m /\ length (sp_shared st) = N.to_nat m /\
    forall k, k < m ->
      Forall2 (relabelled n m) (filter (fun e => both n m k e && next_pose e) ds) (nth (N.to_nat k) (sp_odom st) []) /\
      Forall2 (relabelled n m) (filter (fun e => both n m k e && negb (next_pose e)) ds) (nth (N.to_nat k) (sp_priv st) []) /\
      Forall2 (relabelled n m) (filter (one_end n m k) ds) (nth (N.to_nat k) (sp_shared st) []).
Proof. exact edges_split. Qed.
Print Assumptions C16_edges.

Example C16_example : sizes_ok 7 3 /\ Forall (edge_in 7) zds /\ NoDup (map pair_of zds) /\ Forall (shape_ok 2) zds /\
  match split_dataset 7 3 zds with
  | Ok (Some st) => map (map brief4) (sp_odom st) = [[(0, 0, 0, 1)]; [(1, 0, 1, 1)]; [(2, 0, 2, 1); (2, 1, 2, 2)]] /\
      map (map brief4) (sp_priv st) = [[]; []; [(2, 2, 2, 0)]] /\
      map (map brief4) (sp_shared st) = [[(0, 1, 1, 0); (0, 0, 2, 1)]; [(0, 1, 1, 0); (1, 1, 2, 0)]; [(1, 1, 2, 0); (0, 0, 2, 1)]]
  | _ => False end.
Proof. exact ex_partition. Qed.

(** An edge inside one robot concerns that robot alone, any other edge exactly
    its two robots. *)
Theorem C16_placed : forall S (HS : Num S) n m (e : Meas S), sizes_ok n m -> edge_in n e ->
  exists a b, a < m /\ b < m /\ owns n m a (mp1 e) /\ owns n m b (mp2 e) /\
    (forall k, both n m k e = true <-> a = b /\ k = a) /\ (forall k, one_end n m k e = true <-> a <> b /\ (k = a \/ k = b)).
Proof. exact edge_placed. Qed.
Print Assumptions C16_placed.

(** The robots' column blocks tile the trajectory; cutting and reassembling
    gives it back. *)
Theorem C16_tile : forall n m d, sizes_ok n m ->
  fst (robot_cols d n m 0) = O /\
  (forall k, k + 1 < m -> fst (robot_cols d n m (k + 1)) = (fst (robot_cols d n m k) + snd (robot_cols d n m k))%nat) /\
  (fst (robot_cols d n m (m - 1)) + snd (robot_cols d n m (m - 1)) = N.to_nat n * Datatypes.S d)%nat.
Proof. exact blocks_tile. Qed.
Print Assumptions C16_tile.

Theorem C16_reassemble : forall S (HS : Num S) n m d r (X : Mx S), sizes_ok n m -> mrows X = r -> mcols X = (N.to_nat n * Datatypes.S d)%nat ->
  exists X', form_central d r n m (fun k => Some (robot_block d r n m k X)) X = Ok X' /\ mx_eq X' X.
Proof. exact central_roundtrip. Qed.
Print Assumptions C16_reassemble.

(** The team's cost of the blocks is the dataset's cost of the whole. *)
Theorem C16_cost : forall n m r d (ds ds' : list (Meas R)) (X : Mx R), sizes_ok n m -> Forall2 (relabelled n m) ds ds' -> Forall (fun e => mweight e = 1%R) ds ->
  central_cost r d ds' (range 0 m) (fun _ => []) (fun k => robot_block d r n m k X) = dataset_cost r d ds X.
Proof. exact same_cost. Qed.
Print Assumptions C16_cost.

(** A robot with some odometry stores its lists unchanged (no edge given twice in
    the dataset), hence knows exactly the edges that touch it, as C15 asks. *)
Theorem C16_stored : forall S (HS : Num S) n m (ds : list (Meas S)) st (a : Agent S), sizes_ok n m -> Forall (edge_in n) ds -> NoDup (map pair_of ds) ->
  split_dataset n m ds = Ok (Some st) -> a_thread a = false -> a_state a = WAIT_FOR_DATA -> (p_d (a_params a) <= p_r (a_params a))%nat ->
  Forall (shape_ok (p_d (a_params a))) ds -> a_id a < m ->
  let k := N.to_nat (a_id a) in
  let od := nth k (sp_odom st) [] in let pr := nth k (sp_priv st) [] in let sh := nth k (sp_shared st) [] in
  exists a', ag_setMeasurements a od pr sh = Ok a' /\
    (od = [] -> a' = a) /\ (od <> [] -> pg_odom (a_pg a') = od /\ pg_priv (a_pg a') = pr /\ pg_shared (a_pg a') = sh).
Proof. exact agent_stores. Qed.
Print Assumptions C16_stored.

Theorem C16_knows : forall n m (ds ds' : list (Meas R)) st (a a' : Agent R), sizes_ok n m -> Forall (edge_in n) ds -> NoDup (map pair_of ds) ->
  split_dataset n m ds = Ok (Some st) -> a_thread a = false -> a_state a = WAIT_FOR_DATA -> (p_d (a_params a) <= p_r (a_params a))%nat ->
  Forall (shape_ok (p_d (a_params a))) ds -> a_id a < m -> Forall2 (relabelled n m) ds ds' ->
  let k := N.to_nat (a_id a) in
  ag_setMeasurements a (nth k (sp_odom st) []) (nth k (sp_priv st) []) (nth k (sp_shared st) []) = Ok a' -> nth k (sp_odom st) [] <> [] ->
  knows (a_id a) ds' (a_pg a').
Proof. exact agent_knows. Qed.
Print Assumptions C16_knows.

(** A robot without odometry stores nothing, shared edges included. *)
Theorem C16_no_odometry_refuted : exists st, sizes_ok 2 2 /\ split_dataset 2 2 [ze 0 1] = Ok (Some st) /\
  map (map brief4) (sp_shared st) = [[(0, 0, 1, 0)]; [(0, 0, 1, 0)]] /\
  forall (a : Agent Z) k, a_thread a = false -> a_state a = WAIT_FOR_DATA -> (k < 2)%nat ->
    ag_setMeasurements a (nth k (sp_odom st) []) (nth k (sp_priv st) []) (nth k (sp_shared st) []) = Ok a.
Proof. exact lost_edges. Qed.
Print Assumptions C16_no_odometry_refuted.

(** The next robot is the first one with the largest gradient norm. *)
Theorem C16_selection : forall nbrs sel (norms : list R), nbrs <> [] -> norms <> [] ->
  let k := select_next nbrs sel norms in
  exists g, nth_error norms (N.to_nat k) = Some g /\ Forall (fun x => x <= g)%R norms /\ forall j x, j < k -> nth_error norms (N.to_nat j) = Some x -> (x < g)%R.
Proof. exact selection. Qed.
Print Assumptions C16_selection.
