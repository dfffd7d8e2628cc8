(** Threads, mutexes and the optimisation thread of PGOAgent.

    /repo/include/DPGO/PGOAgent.h:603-645 declares three mutexes
    (mPosesMutex, mNeighborPosesMutex, mMeasurementsMutex), the pointer
    mOptimizationThread and the plain bool mEndLoopRequested.
    Every public call is represented by the sequences of lock, unlock and
    shared-memory steps it can perform; a run of the system is any
    interleaving of such steps.

    Simplifications.  A call is cut down to: acquiring and releasing the
    mutexes, reading and writing the iterate X and the neighbour pose
    dictionaries, and the operations on mOptimizationThread and
    mEndLoopRequested; other data and the arithmetic are not part of this
    model.  A failing CHECK ends the process, so only completed calls are
    described.  Memory is sequentially consistent. *)

From Coq Require Import List Bool Arith.
Import ListNotations.

Set Implicit Arguments.

(** /repo/include/DPGO/PGOAgent.h:639-645: mPosesMutex, mMeasurementsMutex
    and mNeighborPosesMutex. *)
Inductive mutex := MPoses | MMeas | MNbr.

(** Shared memory followed by the model: the iterate X
    (/repo/include/DPGO/PGOAgent.h:567) and the two neighbour pose
    dictionaries (PGOAgent.h:636, 733). *)
Inductive var := VX | VNbr.

(** One step of a thread.  Lock/Unlock are the constructor and the
    destructor of lock_guard / unique_lock; Iter marks the entry into
    iterate(true) at /repo/src/PGOAgent.cpp:492; the last four are the
    operations of startOptimizationLoop and endOptimizationLoop
    (PGOAgent.cpp:475-509). *)
Inductive act :=
| Lock (l : mutex)
| Unlock (l : mutex)
| Read (v : var)
| Write (v : var)
| Iter
| Spawn                 (* mOptimizationThread = make_unique<thread>(...) *)
| SetRequest (b : bool) (* mEndLoopRequested = b *)
| Join                  (* mOptimizationThread->join() *)
| ClearPtr.             (* mOptimizationThread.reset(nullptr) *)

(** The rest of a call.  [IfRunning a b] is the test isOptimizationRunning()
    (/repo/src/PGOAgent.cpp:511-513). *)
Inductive prog :=
| Ret
| Do (a : act) (k : prog)
| IfRunning (yes no : prog).

(** Sequential composition of programs (C++ statement sequencing). *)
Fixpoint seq (p q : prog) : prog :=
  match p with
  | Ret => q
  | Do a k => Do a (seq k q)
  | IfRunning y n => IfRunning (seq y q) (seq n q)
  end.

(** A straight list of steps. *)
Fixpoint steps_of (l : list act) : prog :=
  match l with
  | [] => Ret
  | a :: r => Do a (steps_of r)
  end.

(** [k] repetitions of a program (a C++ loop, any number of rounds). *)
Fixpoint rep (k : nat) (p : prog) : prog :=
  match k with
  | O => Ret
  | S k' => seq p (rep k' p)
  end.

(** {1 The calls} *)

(** Body of a function holding one lock_guard for its whole length. *)
Definition guarded_by (l : mutex) (body : list act) : prog :=
  steps_of (Lock l :: body ++ [Unlock l]).

(** clearNeighborPoses, /repo/src/PGOAgent.cpp:704-708. *)
Definition p_clear_nbr : prog := guarded_by MNbr [Write VNbr].

(** initializeRobustOptimization, /repo/src/PGOAgent.cpp:1048-1060. *)
Definition p_init_robust : prog := guarded_by MMeas [].

(** setXToInitialGuess, /repo/src/PGOAgent.cpp:65-70. *)
Definition p_x_to_init : prog := guarded_by MPoses [Write VX].

(** updateX, /repo/src/PGOAgent.cpp:938-995: tLock, mLock and nLock are
    taken in this order and released in reverse order on every path; the
    neighbour dictionaries are handed to the pose graph (955-957) and X is
    read and rewritten (977, 983). *)
Definition p_updateX : prog :=
  steps_of [Lock MPoses; Lock MMeas; Lock MNbr;
            Read VNbr; Read VX; Write VX;
            Unlock MNbr; Unlock MMeas; Unlock MPoses].

(** endOptimizationLoop, /repo/src/PGOAgent.cpp:501-509. *)
Definition p_end_active : prog :=
  steps_of [SetRequest true; Join; ClearPtr; SetRequest false].
Definition p_end : prog := IfRunning p_end_active Ret.

(** startOptimizationLoop, /repo/src/PGOAgent.cpp:475-484. *)
Definition p_start : prog := IfRunning Ret (Do Spawn Ret).

(** initializeInGlobalFrame, /repo/src/PGOAgent.cpp:308-373: the locked part
    (from line 323 on; tLock lives until the end of the function), with
    [robust] for costType != L2 (351-353) and [halted] for
    optimizationHalted (372). *)
Definition p_init_global_body (robust halted : bool) : prog :=
  Do (Lock MPoses)
   (seq p_clear_nbr
     (Do (Write VX)
       (seq (if robust then p_init_robust else Ret)
         (seq (if halted then p_start else Ret)
           (Do (Unlock MPoses) Ret))))).

(** initializeInGlobalFrame as a whole (314-320: the thread is halted
    before the mutex is taken). *)
Definition p_init_global (robust : bool) : prog :=
  IfRunning (seq p_end (p_init_global_body robust true))
            (p_init_global_body robust false).

(** updateMeasurementWeights, /repo/src/PGOAgent.cpp:1104-1143, once past
    the state test.  [nres] is the number of residuals computed from X and
    the neighbour dictionary (computeMeasurementResidual, 1062-1101),
    [resets] says whether mTrajectoryResetCount < robustOptNumResets (1131),
    and [acc] whether initializeAcceleration (1139-1141) copies X. *)
Definition p_weights (nres : nat) (resets acc : bool) : prog :=
  Do (Lock MMeas)
   (seq (rep nres (steps_of [Read VX; Read VNbr]))
    (seq (if resets then seq p_x_to_init p_clear_nbr else Ret)
     (seq (if acc then Do (Read VX) Ret else Ret)
      (Do (Unlock MMeas) Ret)))).

(** iterate in the state INITIALIZED without acceleration,
    /repo/src/PGOAgent.cpp:376-431: XPrev = X (385) and
    maxTranslationDistance (406) read X outside any lock. *)
Definition p_iterate (doOpt : bool) : prog :=
  seq (Do (Read VX) p_updateX) (if doOpt then Do (Read VX) Ret else Ret).

(** iterate with acceleration, /repo/src/PGOAgent.cpp:385-395: XPrev = X,
    updateY (922-928), updateX, updateV (930-936), and on a restart (887-897)
    X = XPrev, updateX, V = X, Y = X. *)
Definition p_iterate_acc (doOpt restart : bool) : prog :=
  seq (steps_of [Read VX; Read VX])
   (seq p_updateX
    (seq (Do (Read VX) Ret)
     (seq (if restart then seq (Do (Write VX) Ret) (seq p_updateX (Do (Read VX) Ret))
           else Ret)
       (if doOpt then Do (Read VX) Ret else Ret)))).

(** One round of runOptimizationLoop, /repo/src/PGOAgent.cpp:486-499, up to
    the test of mEndLoopRequested (495): iterate(true) in an INITIALIZED
    agent, or the bare counter increment otherwise. *)
Definition p_round (initialized : bool) : prog :=
  Do Iter (if initialized then p_iterate true else Ret).

(** The public calls (/repo/include/DPGO/PGOAgent.h:230-520). *)
Inductive call :=
| CallSetX            (* setX, PGOAgent.cpp:52-63 *)
| CallXToInit         (* setXToInitialGuess, 65-70 *)
| CallReadX           (* getX, getSharedPose, getSharedPoseDict,
                         getSharedPoseDictWithNeighbor, and the trajectory
                         getters, 72-85, 98-130, 718-783; the Aux getters
                         (87-96, 132-168) lock the same mutex *)
| CallAddMeas         (* addMeasurement, 178-183 *)
| CallSetWeight       (* setMeasurementWeight, 1145-1157 *)
| CallInitialize      (* initialize, 199-306 *)
| CallInitGlobal      (* initializeInGlobalFrame, 308-373 *)
| CallIterate         (* iterate called by the user, 376-431 *)
| CallReset           (* reset, 433-473 *)
| CallUpdateNbr       (* updateNeighborPoses, 650-678 *)
| CallUpdateAuxNbr    (* updateAuxNeighborPoses, 680-702 *)
| CallClearNbr        (* clearNeighborPoses, clearActiveNeighborPoses, 704-716 *)
| CallReadNbr         (* getNeighborPoseInGlobalFrame, 788-815 *)
| CallWeights         (* updateMeasurementWeights, no trajectory reset *)
| CallWeightsReset    (* updateMeasurementWeights with trajectory reset *)
| CallInitRobust      (* initializeRobustOptimization, 1048-1060 *)
| CallAnchor          (* anchorFirstPose, 1193-1203: reads X without a lock *)
| CallStart           (* startOptimizationLoop, 475-484 *)
| CallEnd             (* endOptimizationLoop, 501-509, and the destructor, 47-50 *)
| CallNoLock.         (* calls that touch none of the modelled data *)

(** [trace c p]: the call [c] may run as the program [p].  A call with an
    early return also has the empty program. *)
Inductive trace : call -> prog -> Prop :=
| t_setX : trace CallSetX (guarded_by MPoses [Write VX])
| t_xinit : trace CallXToInit p_x_to_init
| t_readX : trace CallReadX (guarded_by MPoses [Read VX])
| t_readX_aux : trace CallReadX (guarded_by MPoses [])
| t_readX_early : trace CallReadX Ret
| t_addMeas : trace CallAddMeas (guarded_by MMeas [])
| t_addMeas_early : trace CallAddMeas Ret
| t_setWeight : trace CallSetWeight (guarded_by MMeas [])
| t_setWeight_early : trace CallSetWeight Ret
(* state is not WAIT_FOR_DATA: immediate return, 200-201 *)
| t_init_early : trace CallInitialize Ret
(* empty pose graph or failed initialisation: [k] weights set in GNC mode
   (249-262), then return (207-210, 277-280) *)
| t_init_fail : forall k, trace CallInitialize (seq p_end (rep k (guarded_by MMeas [])))
(* complete initialisation: X is replaced (292), the global frame is set for
   robot 0 (299-301), and the thread is started in asynchronous mode (304) *)
| t_init : forall k (robust first async : bool),
    trace CallInitialize
      (seq p_end
        (seq (rep k (guarded_by MMeas []))
          (Do (Write VX)
            (seq (if first then p_init_global robust else Ret)
              (if async then p_start else Ret)))))
| t_initGlobal : forall robust, trace CallInitGlobal (p_init_global robust)
| t_iterate : forall doOpt, trace CallIterate (p_iterate doOpt)
| t_iterate_acc : forall doOpt restart, trace CallIterate (p_iterate_acc doOpt restart)
| t_iterate_early : trace CallIterate Ret
(* with logData: getTrajectoryInGlobalFrame (444) and X.getData() (451) *)
| t_reset : forall (logged saved : bool),
    trace CallReset
      (seq p_end
        (seq (if logged then
                seq (if saved then guarded_by MPoses [Read VX] else Ret) (Do (Read VX) Ret)
              else Ret)
             p_clear_nbr))
| t_updateNbr_early : trace CallUpdateNbr Ret
(* the first poses of a neighbour initialise this robot (658-664) *)
| t_updateNbr : forall (first robust store : bool),
    trace CallUpdateNbr
      (seq (if first then p_init_global robust else Ret)
           (if store then guarded_by MNbr [Write VNbr] else Ret))
| t_updateAux : trace CallUpdateAuxNbr (guarded_by MNbr [Write VNbr])
| t_updateAux_early : trace CallUpdateAuxNbr Ret
| t_clear : trace CallClearNbr p_clear_nbr
| t_readNbr : trace CallReadNbr (guarded_by MNbr [Read VNbr])
| t_readNbr_early : trace CallReadNbr Ret
| t_weights : forall n acc, trace CallWeights (p_weights n false acc)
| t_weights_early : trace CallWeights Ret
| t_weightsReset : forall n acc, trace CallWeightsReset (p_weights n true acc)
| t_initRobust : trace CallInitRobust p_init_robust
| t_anchor : trace CallAnchor (Do (Read VX) Ret)
| t_start : trace CallStart p_start
| t_end : trace CallEnd p_end
| t_noLock : trace CallNoLock Ret.

(** {1 The system} *)

(** The optimisation thread: none, running with the rest of its current
    round, or returned from runOptimizationLoop and not yet joined. *)
Inductive wstate := WNone | WRun (p : prog) | WDone.

(** A calling thread: rest of the current call, the call in progress or last
    completed, and the calls still to be made. *)
Record caller := mkCaller { cur : prog; last : option call; todo : list call }.

(** Thread identifiers: 0 is the optimisation thread, [S i] the caller [i]. *)
Record sys := mkSys {
  owner : mutex -> option nat;  (* holder of each mutex *)
  ptr : bool;                   (* mOptimizationThread != nullptr *)
  req : bool;                   (* mEndLoopRequested *)
  wrk : wstate;
  rounds : nat;                 (* calls of iterate made by the thread *)
  spawned : nat;                (* threads created so far *)
  dead : bool;                  (* std::terminate has been called *)
  callers : nat -> caller }.

(** Update of a function at one point. *)
Definition upd {A} (f : nat -> A) (i : nat) (x : A) : nat -> A :=
  fun j => if Nat.eqb j i then x else f j.

(** Decidable equality of mutexes. *)
Definition mutex_eqb (a b : mutex) : bool :=
  match a, b with
  | MPoses, MPoses => true
  | MMeas, MMeas => true
  | MNbr, MNbr => true
  | _, _ => false
  end.

(** Update of the owner of one mutex. *)
Definition set_owner (s : sys) (l : mutex) (o : option nat) : sys :=
  mkSys (fun m => if mutex_eqb m l then o else owner s m)
    (ptr s) (req s) (wrk s) (rounds s) (spawned s) (dead s) (callers s).

(** Field setters. *)
Definition set_ptr (s : sys) (b : bool) : sys :=
  mkSys (owner s) b (req s) (wrk s) (rounds s) (spawned s) (dead s) (callers s).
Definition set_req (s : sys) (b : bool) : sys :=
  mkSys (owner s) (ptr s) b (wrk s) (rounds s) (spawned s) (dead s) (callers s).
Definition set_wrk (s : sys) (w : wstate) : sys :=
  mkSys (owner s) (ptr s) (req s) w (rounds s) (spawned s) (dead s) (callers s).
Definition set_dead (s : sys) : sys :=
  mkSys (owner s) (ptr s) (req s) (wrk s) (rounds s) (spawned s) true (callers s).
Definition set_caller (s : sys) (i : nat) (c : caller) : sys :=
  mkSys (owner s) (ptr s) (req s) (wrk s) (rounds s) (spawned s) (dead s)
    (upd (callers s) i c).
Definition add_round (s : sys) : sys :=
  mkSys (owner s) (ptr s) (req s) (wrk s) (S (rounds s)) (spawned s) (dead s) (callers s).

(** A new thread starts with a round of runOptimizationLoop. *)
Definition new_worker (s : sys) (p : prog) : sys :=
  mkSys (owner s) true (req s) (WRun p) (rounds s) (S (spawned s)) (dead s) (callers s).

(** Effect of one step of thread [t].
    - Lock: only when the mutex is free (std::mutex; a thread that already
      owns it waits for ever).
    - Unlock: by the owner.
    - Spawn: assigning to a pointer that still holds a joinable thread
      destroys that thread object, which calls std::terminate; the same
      happens in ClearPtr on a thread that was not joined.
    - Join: returns when the thread function has returned. *)
Inductive exec (t : nat) : act -> sys -> sys -> Prop :=
| x_lock : forall l s, owner s l = None -> exec t (Lock l) s (set_owner s l (Some t))
| x_unlock : forall l s, owner s l = Some t -> exec t (Unlock l) s (set_owner s l None)
| x_read : forall v s, exec t (Read v) s s
| x_write : forall v s, exec t (Write v) s s
| x_iter : forall s, exec t Iter s (add_round s)
| x_spawn : forall s b, ptr s = false -> wrk s = WNone ->
    exec t Spawn s (new_worker s (p_round b))
| x_spawn_dead : forall s, (ptr s = true \/ wrk s <> WNone) -> exec t Spawn s (set_dead s)
| x_req : forall b s, exec t (SetRequest b) s (set_req s b)
| x_join : forall s, wrk s = WDone -> exec t Join s (set_wrk s WNone)
| x_clear : forall s, wrk s = WNone -> exec t ClearPtr s (set_ptr s false)
| x_clear_dead : forall s, wrk s <> WNone -> exec t ClearPtr s (set_dead s).

(** One step of caller [i]. *)
Inductive caller_step (i : nat) (s : sys) : sys -> Prop :=
| cs_call : forall c r p lst,
    callers s i = mkCaller Ret lst (c :: r) -> trace c p ->
    caller_step i s (set_caller s i (mkCaller p (Some c) r))
| cs_do : forall a k lst r s',
    callers s i = mkCaller (Do a k) lst r ->
    exec (S i) a (set_caller s i (mkCaller k lst r)) s' ->
    caller_step i s s'
| cs_if : forall y n lst r,
    callers s i = mkCaller (IfRunning y n) lst r ->
    caller_step i s (set_caller s i (mkCaller (if ptr s then y else n) lst r)).

(** One step of the optimisation thread, /repo/src/PGOAgent.cpp:491-498. *)
Inductive worker_step (s : sys) : sys -> Prop :=
| ws_do : forall a k s',
    wrk s = WRun (Do a k) ->
    exec 0 a (set_wrk s (WRun k)) s' ->
    worker_step s s'
| ws_if : forall y n,
    wrk s = WRun (IfRunning y n) ->
    worker_step s (set_wrk s (WRun (if ptr s then y else n)))
| ws_break : wrk s = WRun Ret -> req s = true -> worker_step s (set_wrk s WDone)
| ws_again : forall b, wrk s = WRun Ret -> req s = false ->
    worker_step s (set_wrk s (WRun (p_round b))).

(** One step of the process; nothing runs after std::terminate. *)
Inductive step (s : sys) : sys -> Prop :=
| st_worker : forall s', dead s = false -> worker_step s s' -> step s s'
| st_caller : forall i s', dead s = false -> caller_step i s s' -> step s s'.

(** Any number of steps. *)
Inductive steps (s : sys) : sys -> Prop :=
| ss_refl : steps s s
| ss_step : forall s1 s2, steps s s1 -> step s1 s2 -> steps s s2.

(** The process after construction (/repo/src/PGOAgent.cpp:29-45): no mutex
    held, no thread, no request; the callers are about to make [calls]. *)
Definition boot (calls : nat -> list call) : sys :=
  mkSys (fun _ => None) false false WNone 0 0 false
    (fun i => mkCaller Ret None (calls i)).
