(** Property theorems about the mutexes and the optimisation thread:
    C40, C41 and C52. *)

From Coq Require Import List Bool Arith Relations.
From Verif Require Import ModelThreads SpecThreads ProofsThreads2 ProofsThreadsEx.
Import ListNotations.

(** {1 C40: no deadlock, except one inversion} *)

(** Every call except the weight update with trajectory reset takes the
    mutexes in the order poses, measurements, neighbours; it reaches join()
    with no mutex held and ends with none held. *)
Theorem C40_order : forall c p l,
  c <> CallWeightsReset -> trace c p -> path p l -> in_order l.
Proof. exact order_holds. Qed.
Print Assumptions C40_order.

Example C40_order_case :
  trace CallInitGlobal (p_init_global true) /\
  path (p_init_global true)
    [Lock MPoses; Lock MNbr; Write VNbr; Unlock MNbr; Write VX;
     Lock MMeas; Unlock MMeas; Unlock MPoses].
Proof. split; [constructor|]. apply p_no. repeat constructor. Qed.

(** The same for a round of the optimisation thread. *)
Theorem C40_order_thread : forall b l, path (p_round b) l -> in_order l.
Proof. exact round_order. Qed.
Print Assumptions C40_order_thread.

Example C40_order_thread_case : exists l, path (p_round true) l /\ In (Lock MMeas) l.
Proof. eexists. split; [cbn; repeat constructor|]. cbn. tauto. Qed.

(** Any number of threads, any programs of such calls, any interleaving: an
    unfinished thread is never part of a deadlock. *)
Theorem C40_progress : forall calls s t,
  one_controller calls -> nobody_calls [CallWeightsReset] calls ->
  steps (boot calls) s -> unfinished s t ->
  exists u, clos_refl_trans nat (waits s) t u /\ can_move s u.
Proof. exact progress_reach. Qed.
Print Assumptions C40_progress.

Example C40_progress_case :
  one_controller busy_calls /\ nobody_calls [CallWeightsReset] busy_calls /\
  exists s, steps (boot busy_calls) s /\ unfinished s 3 /\ waits s 3 0 /\ waits s 0 2.
Proof. exact (conj busy_one (conj busy_nobody busy_wait)). Qed.

(** The weight update with trajectory reset takes the pose mutex while it
    holds the measurement mutex. *)
Theorem C40_order_refuted :
  exists p l, trace CallWeightsReset p /\ path p l /\
    exists pre post, l = pre ++ Lock MPoses :: post /\ held_after pre MMeas.
Proof. exact order_refuted. Qed.
Print Assumptions C40_order_refuted.

(** Against the optimisation thread this deadlocks. *)
Theorem C40_deadlock_refuted :
  one_controller dl_calls /\ exists s, steps (boot dl_calls) s /\ stuck s.
Proof. exact (conj dl_one deadlock). Qed.
Print Assumptions C40_deadlock_refuted.

Example C40_deadlock_case : forall s, stuck s -> ~ live s 0 /\ ~ live s 1.
Proof. exact stuck_not_live. Qed.

(** {1 C41: stopping the optimisation thread} *)

(** With one controlling thread a second optimisation thread is never
    created over a first one, and a running one is never destroyed. *)
Theorem C41_single : forall calls s,
  one_controller calls -> steps (boot calls) s -> dead s = false.
Proof. exact never_dead. Qed.
Print Assumptions C41_single.

Example C41_single_case : one_controller busy_calls.
Proof. exact busy_one. Qed.

(** After endOptimizationLoop (or reset) returns, no thread exists, and
    every thread created so far has made at least one round. *)
Theorem C41_stopped : forall calls s c,
  one_controller calls -> steps (boot calls) s ->
  c = CallEnd \/ c = CallReset -> just_returned s c ->
  wrk s = WNone /\ ptr s = false /\ req s = false /\ spawned s <= rounds s.
Proof. exact stopped. Qed.
Print Assumptions C41_stopped.

Example C41_stopped_case :
  one_controller se_calls /\ exists s, steps (boot se_calls) s /\
  just_returned s CallEnd /\ rounds s = 1 /\ spawned s = 1 /\ todo (callers s 0) = [CallReadX].
Proof. exact (conj se_one stop_example). Qed.

(** No round is made from then on, in any continuation that calls neither
    startOptimizationLoop nor initialize. *)
Theorem C41_quiet : forall calls s s',
  one_controller calls -> steps (boot calls) s -> cur (callers s 0) = Ret ->
  ptr s = false ->
  (forall c, In c (todo (callers s 0)) -> c <> CallStart /\ c <> CallInitialize) ->
  steps s s' -> wrk s' = WNone /\ ptr s' = false /\ rounds s' = rounds s.
Proof. exact quiet_after. Qed.
Print Assumptions C41_quiet.

Example C41_quiet_case :
  exists s, steps (boot se_calls) s /\ cur (callers s 0) = Ret /\ ptr s = false /\
  todo (callers s 0) = [CallReadX].
Proof.
  destruct stop_example as (s & H1 & H2 & _ & _ & H5). exists s.
  split; [exact H1|]. split; [exact (proj1 H2)|]. split; [|exact H5].
  exact (proj1 (proj2 (stopped se_one H1 (or_introl eq_refl) H2))).
Qed.

(** Between calls, isOptimizationRunning() tells whether a thread runs. *)
Theorem C41_running : forall calls s,
  one_controller calls -> steps (boot calls) s -> cur (callers s 0) = Ret ->
  (ptr s = true <-> unfinished s 0).
Proof. exact running_iff. Qed.
Print Assumptions C41_running.

Example C41_running_case : exists s, steps (boot se_calls) s /\ cur (callers s 0) = Ret.
Proof. exists (boot se_calls). split; [apply ss_refl|reflexivity]. Qed.

(** While the request is set at most one more round begins, and none if the
    thread is already inside one. *)
Theorem C41_request : forall calls s s',
  one_controller calls -> steps (boot calls) s -> steps_requested s s' ->
  rounds s' <= rounds s + 1 /\ (~ at_act s 0 Iter -> rounds s' <= rounds s).
Proof. exact at_most_one_more. Qed.
Print Assumptions C41_request.

Example C41_request_case : exists s s', steps (boot se_calls) s /\ steps_requested s s' /\
  at_act s 0 Iter /\ rounds s' = rounds s + 1.
Proof. exact one_more_example. Qed.

(** While the request is set the thread makes at most thirteen further steps
    of its own: join() waits for a bounded amount of its work. *)
Theorem C41_ends : forall calls s n s',
  one_controller calls -> steps (boot calls) s -> requested_run s n s' -> n <= 13.
Proof. exact requested_bound. Qed.
Print Assumptions C41_ends.

Example C41_ends_case : exists s s', steps (boot se_calls) s /\ requested_run s 1 s'.
Proof.
  destruct one_more_example as (s & s' & H1 & H2 & (k & E) & _).
  destruct (wrk s) as [|p|] eqn:Ew; cbn in E; rewrite Ew in E; try discriminate.
  injection E as ->.
  exists s, (add_round (set_wrk s (WRun k))). split; [exact H1|].
  apply rr_worker with s.
  - apply rr_refl. clear -H2. induction H2; assumption.
  - exact (never_dead se_one H1).
  - eapply ws_do; [exact Ew|apply x_iter].
Qed.

(** Two threads that call startOptimizationLoop concurrently end the process. *)
Theorem C41_two_controllers_refuted :
  exists s, steps (boot two_calls) s /\ dead s = true.
Proof. exact two_controllers. Qed.
Print Assumptions C41_two_controllers_refuted.

(** {1 C52: which shared data the mutexes protect} *)

(** Without weight updates, no two threads ever access the neighbour
    dictionaries at the same time with one of them writing. *)
Theorem C52_neighbours : forall calls s,
  nobody_calls [CallWeights; CallWeightsReset] calls ->
  steps (boot calls) s -> ~ race s VNbr.
Proof. exact nbr_no_race. Qed.
Print Assumptions C52_neighbours.

Example C52_neighbours_case : nobody_calls [CallWeights; CallWeightsReset] share_calls.
Proof. exact share_nobody. Qed.

(** The setters and getters of the iterate do not race with each other. *)
Theorem C52_iterate : forall calls s,
  nobody_calls x_calls calls -> steps (boot calls) s -> ~ race s VX.
Proof. exact x_no_race. Qed.
Print Assumptions C52_iterate.

Example C52_iterate_case : nobody_calls x_calls xonly_calls.
Proof. exact xonly_nobody. Qed.

(** updateMeasurementWeights reads the dictionaries without their mutex. *)
Theorem C52_weights_refuted : one_controller rn_calls /\
  exists s, steps (boot rn_calls) s /\ race s VNbr.
Proof. exact race_nbr. Qed.
Print Assumptions C52_weights_refuted.

(** iterate reads X without its mutex. *)
Theorem C52_iterate_refuted : one_controller rx_calls /\
  exists s, steps (boot rx_calls) s /\ race s VX.
Proof. exact race_x. Qed.
Print Assumptions C52_iterate_refuted.

(** The request flag is a plain bool, written while the thread tests it. *)
Theorem C52_flag_refuted : exists s, steps (boot se_calls) s /\
  at_act s 1 (SetRequest true) /\ wrk s = WRun Ret.
Proof. exact race_flag. Qed.
Print Assumptions C52_flag_refuted.
