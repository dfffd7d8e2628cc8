(** Property C55: the published status. *)
From Coq Require Import List NArith ZArith Bool QArith Reals.
From Coq Require PrimFloat.
From Verif Require Import Base SMap Num NumFloat RSum ModelTypes ModelPoseGraph ModelRobust ModelPoses ModelSolver ModelAgent
  SpecPoseGraph SpecAgent SpecCost SpecStatus ProofsAgentEx ProofsStatus ProofsStatusEx.
Import ListNotations.
Local Open Scope R_scope.

(** ** C55 *)
(** What an optimising iteration publishes. *)
Theorem C55_status : forall S (HS : Num S) (x : Ext S) opt a a' s,
  ag_iterate x opt a true = Ok (a', s) -> a_state a = INITIALIZED ->
  exists change st, maxTranslationDistance (a_X a') (a_X a) = Ok change /\ statistics (a_pg a') = Ok st /\
    st_id (a_status a') = a_id a /\ st_state (a_status a') = INITIALIZED /\ st_inst (a_status a') = a_inst a /\
    st_iter (a_status a') = u32 (a_iter a + 1) /\ st_change (a_status a') = change /\
    (st_ready (a_status a') = true <->
       s = true /\ nltb (tolerance (a_params a) (a_wuc a)) change = false /\ decided (a_params a) st).
Proof. exact @c55_status. Qed.
Print Assumptions C55_status.

(** An iteration that does not optimise publishes nothing. *)
Theorem C55_no_status : forall S (HS : Num S) (x : Ext S) opt a b a' s,
  ag_iterate x opt a b = Ok (a', s) -> a_state a <> INITIALIZED \/ b = false -> a_status a' = a_status a.
Proof. exact @c55_no_status. Qed.
Print Assumptions C55_no_status.

Example C55_status_case : exists a, areach zx 1 (zp false) (join ++ [AIterate zshift true; AIterate zshift false]) a /\
  (st_ready (a_status a) = true /\ st_change (a_status a) = 1%Q /\ st_iter (a_status a) = 1%N /\ a_iter a = 2%N).
Proof. exact ex_status. Qed.

(** A ready flag goes back to the last optimising step since the last reset or
    weight update: it succeeded, the iterate moved by at most the tolerance, and
    enough loop closures were decided. *)
Theorem C55_ready : forall S (HS : Num S) (x : Ext S) id p os a,
  areach x id p os a -> st_ready (a_status a) = true ->
  exists es1 e es2 opt, since renews (history x id p os) = es1 ++ e :: es2 /\
    optimises e = true /\ existsb optimises es2 = false /\
    ag_iterate x opt (e_pre e) true = Ok (e_post e, true) /\
    maxTranslationDistance (a_X (e_post e)) (a_X (e_pre e)) = Ok (st_change (a_status a)) /\
    nltb (tolerance p (a_wuc (e_pre e))) (st_change (a_status a)) = false /\
    exists st, statistics (a_pg (e_post e)) = Ok st /\ decided p st.
Proof. exact @ready_hist. Qed.
Print Assumptions C55_ready.

Example C55_ready_case : exists a, areach zx 1 (zp false) (join ++ [AIterate zopt true]) a /\
  (st_ready (a_status a) = true /\ st_change (a_status a) = 5%Q).
Proof. exact ex_status_far. Qed.
Example C55_wait_case : exists a, areach zx 1 (zp false) (join ++ [AIterate zshift true; AUpdWeights]) a /\
  (st_ready (a_status a) = false /\ st_change (a_status a) = 0%Q).
Proof. exact ex_status_wait. Qed.

(** The two distances between trajectories. *)
Theorem C55_distances : forall r d n (a b : PoseArr R), arr r d n a -> arr r d n b ->
  exists m, maxTranslationDistance a b = Ok m /\ largest n (tdist r d (pa_X a) (pa_X b)) m /\ 0 <= m /\
    ((0 < n)%nat -> exists v, averageTranslationDistance a b = Ok v /\
       INR n * v = rsum n (tdist r d (pa_X a) (pa_X b)) /\ 0 <= v <= m).
Proof. exact distances. Qed.
Print Assumptions C55_distances.

Theorem C55_metric : forall r d n (a b c : PoseArr R), arr r d n a -> arr r d n b -> arr r d n c ->
  exists ab ba bc ac, maxTranslationDistance a b = Ok ab /\ maxTranslationDistance b a = Ok ba /\
    maxTranslationDistance b c = Ok bc /\ maxTranslationDistance a c = Ok ac /\
    ab = ba /\ ac <= ab + bc /\
    (ab = 0 <-> forall i k, (i < n)%nat -> (k < r)%nat -> pa_X a k (i * (d + 1) + d)%nat = pa_X b k (i * (d + 1) + d)%nat).
Proof. exact max_metric. Qed.
Print Assumptions C55_metric.

Example C55_distances_case : exists a b : PoseArr R, arr 2 2 2 a /\ arr 2 2 2 b /\ pa_X a 0%nat 5%nat = 3 /\ pa_X b 0%nat 5%nat = 0.
Proof. exact ex_dist. Qed.

Theorem C55_aborts : forall S (HS : Num S) (a b : PoseArr S), pa_d a <> pa_d b \/ pa_n a <> pa_n b ->
  maxTranslationDistance a b = Abort /\ averageTranslationDistance a b = Abort.
Proof. exact @distance_aborts. Qed.
Print Assumptions C55_aborts.

(** Findings: a NaN translation counts as no change, so a trajectory of NaNs is
    ready to terminate; the average over no poses is a NaN. *)
Theorem C55_nan_refuted : exists a, areach fx 0 fp (fops ++ [AIterate fnan true]) a /\
  st_ready (a_status a) = true /\ st_change (a_status a) = PrimFloat.zero /\
  (forall i j, (i < 3)%nat -> (j < 9)%nat -> a_X a = mkPA 3 2 3 (pa_X (a_X a)) /\ PrimFloat.is_nan (pa_X (a_X a) i j) = true).
Proof. exact nan_ready. Qed.
Print Assumptions C55_nan_refuted.
Theorem C55_nan_distance_refuted : exists a b : PoseArr XR, arr 2 2 1 a /\ arr 2 2 1 b /\
  pa_X a 0%nat 2%nat = XNaN /\ pa_X b 0%nat 2%nat = Fin 7 /\ maxTranslationDistance a b = Ok (Fin 0).
Proof. exact max_nan. Qed.
Print Assumptions C55_nan_distance_refuted.
Theorem C55_empty_refuted : exists a b : PoseArr XR, arr 3 2 0 a /\ arr 3 2 0 b /\ averageTranslationDistance a b = Ok XNaN.
Proof. exact avg_empty. Qed.
Print Assumptions C55_empty_refuted.
