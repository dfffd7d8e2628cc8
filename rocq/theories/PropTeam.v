(** C64: what the robots of a team know of each other, whatever the network delivers. *)
From Coq Require Import List NArith ZArith Bool Arith Reals QArith.
From Verif Require Import Base SMap Num RSum ModelTypes ModelPoseGraph ModelRobust ModelPoses ModelSolver ModelAgent ModelTeam SpecPoseGraph SpecCost SpecAgent SpecStatus SpecTeam
  ProofsAgentEx ProofsFramesEx ProofsTeam ProofsTeam2 ProofsTeam3 ProofsTeamEx.
Import ListNotations.
Local Open Scope res_scope.

(** A cached pose was, at some earlier moment, the pose its owner had and published. *)
Theorem C64_cache : forall S (HS : Num S) (x : Ext S) P m os t j a q v, treach x P m os t -> robot t j a ->
  let was (est : Agent S -> PoseArr S) := once x P m os (robot_id q) (fun b => a_state b = INITIALIZED /\
    is_block (p_r (P (robot_id q))) (p_d (P (robot_id q))) (pa_X (est b)) (N.to_nat (frame_id q)) v /\
    exists e, In e (pg_shared (a_pg b)) /\ own_pose (robot_id q) e = q) in
  (mfind pose_ltb q (a_ndict a) = Some v -> was a_X) /\ (mfind pose_ltb q (a_naux a) = Some v -> was a_Y).
Proof. exact @team_cache. Qed.
Print Assumptions C64_cache.

Example C64_cache_case : exists t a, treach zx tP 2 setup t /\ robot t 1 a /\
  map (fun e => (fst e, dump (snd e))) (a_ndict a) = [(mkPoseID 0 1, [[1; 0; 1]; [0; 1; 0]; [0; 0; 0]]%Q)].
Proof. destruct ex_cache as (t & R & H). apply has_robot in H. destruct H as (a & K & F). eauto. Qed.

(** A status on record was the status of that robot at some earlier moment. *)
Theorem C64_status : forall S (HS : Num S) (x : Ext S) P m os t j a k s, treach x P m os t -> robot t j a ->
  mfind N.ltb k (a_team a) = Some s -> once x P m os k (fun b => a_status b = s).
Proof. exact @team_status. Qed.
Print Assumptions C64_status.

(** When a robot decides to stop before the iteration limit, every active robot had at some moment
    taken an optimising step that moved it by no more than the tolerance and left enough loop closures decided. *)
Theorem C64_terminate : forall S (HS : Num S) (x : Ext S) P m os t j a, treach x P m os t -> robot t j a ->
  ag_shouldTerminate a = Ok true -> (a_iter a < p_maxit (P j))%N ->
  forall k, (k < p_numRobots (P j))%N -> ag_isRobotActive a k = Ok true -> once x P m os k (settled x (P k)).
Proof. exact @team_terminate. Qed.
Print Assumptions C64_terminate.

Example C64_terminate_case : exists t a, treach zx tP 2 (setup ++ still) t /\ robot t 1 a /\ ag_shouldTerminate a = Ok true /\
  (a_iter a < p_maxit (tP 1))%N /\ ag_isRobotActive a 0 = Ok true /\ ag_isRobotActive a 1 = Ok true.
Proof. destruct ex_terminate as (t & R & H). apply has_robot in H. destruct H as (a & K & F). eauto. Qed.

(** Not that they are ready now: nothing in a status says how old it is. *)
Theorem C64_terminate_now_refuted : exists t a b, treach zx tP 2 ((setup ++ still) ++ [TCall 0 (AIterate (shift 100) true)]) t /\ robot t 1 a /\ robot t 0 b /\
  (ag_shouldTerminate a = Ok true /\ (a_iter a < p_maxit (tP 1))%N /\ ag_isRobotActive a 0 = Ok true) /\
  a_state b = INITIALIZED /\ st_ready (a_status b) = false /\ st_change (a_status b) = 100%Q.
Proof. destruct stale_status as (t & R & Ha & Hb). apply has_robot in Ha, Hb. destruct Ha as (a & Ka & Fa), Hb as (b & Kb & Fb). exists t, a, b. auto. Qed.
Print Assumptions C64_terminate_now_refuted.

(** Sending status and public poses between two initialised robots succeeds: the receiver then has the sender's
    present pose wherever the two share an edge, and nothing else changes but the two status records. *)
Theorem C64_pass : forall S (HS : Num S) (x : Ext S) P m os t j k a b, treach x P m os t -> robot t j a -> robot t k b -> j <> k ->
  a_state a = INITIALIZED -> a_state b = INITIALIZED -> a_YLift a <> None -> p_r (P j) = p_r (P k) -> p_d (P j) = p_d (P k) ->
  let ops := pass k j (length (tm_status t)) (length (tm_poses t)) in
  exists t' c, tm_run x t ops = Ok t' /\ treach x P m (os ++ ops) t' /\
    robot t' j (sa_ndict (ag_setNeighborStatus a (a_status (ag_getStatus b))) c) /\ robot t' k (ag_getStatus b) /\
    (forall i w, i <> j -> i <> k -> robot t' i w <-> robot t i w) /\
    length (tm_status t') = Datatypes.S (length (tm_status t)) /\ length (tm_poses t') = Datatypes.S (length (tm_poses t)) /\
    (forall q, SpecAgent.touches a q -> (exists e, In e (pg_shared (a_pg b)) /\ own_pose k e = q) ->
       exists v, mfind pose_ltb q c = Some v /\ is_block (p_r (P k)) (p_d (P k)) (pa_X (a_X b)) (N.to_nat (frame_id q)) v) /\
    (forall q, ~ SpecAgent.touches a q \/ ~ (exists e, In e (pg_shared (a_pg b)) /\ own_pose k e = q) -> mfind pose_ltb q c = mfind pose_ltb q (a_ndict a)).
Proof. exact @team_pass. Qed.
Print Assumptions C64_pass.

Example C64_pass_case : exists t a b, treach rx rtP 2 rsetup t /\ robot t 0 a /\ robot t 1 b /\ rfacts a /\ rfacts b.
Proof. destruct rteam as (t & R & Ha & Hb & _). apply rhas_robot in Ha, Hb. destruct Ha as (a & Ka & Fa), Hb as (b & Kb & Fb). exists t, a, b. auto. Qed.

(** An older message delivered late replaces a newer pose. *)
Theorem C64_latest_refuted : exists os t a b t' a', treach zx tP 2 os t /\ robot t 1 a /\ robot t 0 b /\ fresh 3 2 1 a b tm01 /\
  tm_step zx t (TPoses 1 0) = Ok t' /\ robot t' 1 a' /\ robot t' 0 b /\ ~ fresh 3 2 1 a' b tm01.
Proof. exact overtaken. Qed.
Print Assumptions C64_latest_refuted.

(** Both robots of a shared edge give it the same weight, that of the present estimates, if they exchange
    their poses just before and are at the same stage of the robust optimisation. *)
Theorem C64_weights : forall (x : Ext R) P m os t j k a b (e e' : Meas R) t',
  treach x P m os t -> robot t j a -> robot t k b -> a_state a = INITIALIZED -> a_state b = INITIALIZED ->
  a_YLift a <> None -> a_YLift b <> None -> p_r (P j) = p_r (P k) -> p_d (P j) = p_d (P k) -> a_rc a = a_rc b ->
  In e (pg_shared (a_pg a)) -> In e' (pg_shared (a_pg b)) -> strip e' = strip e -> robot_id (other_pose j e) = k ->
  mfixed e = false -> mfixed e' = false -> lc_active a e = true -> lc_active b e' = true ->
  let ns := length (tm_status t) in let np := length (tm_poses t) in
  tm_run x t (pass k j ns np ++ pass j k (Datatypes.S ns) (Datatypes.S np) ++ [TCall j AUpdWeights; TCall k AUpdWeights]) = Ok t' ->
  let w := weight (a_rc a) (edge_res (p_r (P j)) (p_d (P j)) e (fun i => if (i =? j)%N then a_X a else a_X b)) in
  exists a' b', robot t' j a' /\ robot t' k b' /\ In (set_mweight w e) (pg_shared (a_pg a')) /\ In (set_mweight w e') (pg_shared (a_pg b')).
Proof. exact team_weights. Qed.
Print Assumptions C64_weights.

(** Residual sqrt 30 against a threshold of 1: both reject the edge. *)
Example C64_weights_case : exists t t' a' b', treach rx rtP 2 rsetup t /\
  tm_run rx t (pass 1 0 0 0 ++ pass 0 1 1 1 ++ [TCall 0 AUpdWeights; TCall 1 AUpdWeights]) = Ok t' /\
  robot t' 0 a' /\ robot t' 1 b' /\ In (set_mweight 0%R rm01) (pg_shared (a_pg a')) /\ In (set_mweight 0%R rm01) (pg_shared (a_pg b')).
Proof. exact ex_weights_agree. Qed.

(** Without that, one keeps what the other has rejected: the library never compares the two copies. *)
Theorem C64_weights_refuted : exists t a b, treach zx tP 2 (setup ++ [TCall 0 AUpdWeights; TCall 1 (AIterate (shift 100) true); TCall 1 AUpdWeights]) t /\
  robot t 0 a /\ robot t 1 b /\
  (map strip (pg_shared (a_pg a)) = [strip tm01] /\ map mweight (pg_shared (a_pg a)) = [1%Q] /\ a_wuc a = 1%Z) /\
  map strip (pg_shared (a_pg b)) = [strip tm01] /\ map mweight (pg_shared (a_pg b)) = [0%Q] /\ a_wuc b = 1%Z.
Proof. destruct weights_differ as (t & R & Ha & Hb). apply has_robot in Ha, Hb. destruct Ha as (a & Ka & Fa), Hb as (b & Kb & Fb). exists t, a, b. auto. Qed.
Print Assumptions C64_weights_refuted.
