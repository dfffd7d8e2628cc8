(** What it means for a set of threads not to be deadlocked, for a race to
    be present, and for a call to take the mutexes in order.  Nothing here
    mentions how the invariants are proved. *)

From Coq Require Import List Bool Arith Relations.
From Verif Require Import ModelThreads.
Import ListNotations.

(** The calls that start or stop the optimisation thread (directly or
    through initializeInGlobalFrame). *)
Definition controls (c : call) : bool :=
  match c with
  | CallInitialize | CallInitGlobal | CallReset | CallUpdateNbr
  | CallStart | CallEnd => true
  | _ => false
  end.

(** Only caller 0 makes such calls. *)
Definition one_controller (calls : nat -> list call) : Prop :=
  forall i c, In c (calls i) -> controls c = true -> i = 0.

(** Nobody makes any of the calls in [l]. *)
Definition nobody_calls (l : list call) (calls : nat -> list call) : Prop :=
  forall i c, In c (calls i) -> ~ In c l.

(** The program a thread has left to run (the optimisation thread is 0). *)
Definition thread_prog (s : sys) (t : nat) : option prog :=
  match t with
  | O => match wrk s with WRun p => Some p | _ => None end
  | S i => Some (cur (callers s i))
  end.

(** The next step of thread [t] is [a]. *)
Definition at_act (s : sys) (t : nat) (a : act) : Prop :=
  exists k, thread_prog s t = Some (Do a k).

(** Thread [t] has something left to do. *)
Definition unfinished (s : sys) (t : nat) : Prop :=
  match t with
  | O => exists p, wrk s = WRun p
  | S i => cur (callers s i) <> Ret \/ todo (callers s i) <> []
  end.

(** Thread [t] waits for thread [u]. *)
Inductive waits (s : sys) (t u : nat) : Prop :=
| w_mutex : forall l, at_act s t (Lock l) -> owner s l = Some u -> waits s t u
| w_join : at_act s t Join -> u = 0 -> wrk s <> WDone -> waits s t u.

(** Thread [t] has an enabled step. *)
Definition can_move (s : sys) (t : nat) : Prop :=
  dead s = false /\
  match t with
  | O => exists s', worker_step s s'
  | S i => exists s', caller_step i s s'
  end.

(** Thread [t] is not part of a deadlock: following what it waits for leads
    to a thread that can move. *)
Definition live (s : sys) (t : nat) : Prop :=
  exists u, clos_refl_trans nat (waits s) t u /\ can_move s u.

(** Two different threads are about to access [v], one of them to write. *)
Definition race (s : sys) (v : var) : Prop :=
  exists t u, t <> u /\ at_act s t (Write v) /\ (at_act s u (Write v) \/ at_act s u (Read v)).

(** {1 Orders of acquisition along one execution of a call} *)

(** The sequences of steps a program can perform, whatever isOptimizationRunning()
    answers. *)
Inductive path : prog -> list act -> Prop :=
| p_ret : path Ret []
| p_do : forall a k l, path k l -> path (Do a k) (a :: l)
| p_yes : forall y n l, path y l -> path (IfRunning y n) l
| p_no : forall y n l, path n l -> path (IfRunning y n) l.

(** Mutex [m] is held after the steps [l]: it was locked and not unlocked since. *)
Definition held_after (l : list act) (m : mutex) : Prop :=
  exists l1 l2, l = l1 ++ Lock m :: l2 /\ ~ In (Unlock m) l2.

(** The order of the three mutexes. *)
Definition rank (m : mutex) : nat :=
  match m with MPoses => 0 | MMeas => 1 | MNbr => 2 end.

(** Every acquisition in [l] is above everything held at that moment, and
    join() is reached with no mutex held. *)
Definition in_order (l : list act) : Prop :=
  (forall pre m post, l = pre ++ Lock m :: post ->
     forall m', held_after pre m' -> rank m' < rank m) /\
  (forall pre post m, l = pre ++ Join :: post -> ~ held_after pre m) /\
  (forall m, ~ held_after l m).

(** {1 Stopping the optimisation thread} *)

(** Caller 0 is between two calls and the last one it completed is [c]. *)
Definition just_returned (s : sys) (c : call) : Prop :=
  cur (callers s 0) = Ret /\ last (callers s 0) = Some c.

(** Runs during which mEndLoopRequested stays set. *)
Inductive steps_requested (s : sys) : sys -> Prop :=
| sr_refl : req s = true -> steps_requested s s
| sr_step : forall s1 s2,
    steps_requested s s1 -> step s1 s2 -> req s2 = true -> steps_requested s s2.

(** Runs with the request set, counting the steps of the optimisation
    thread. *)
Inductive requested_run (s : sys) : nat -> sys -> Prop :=
| rr_refl : req s = true -> requested_run s 0 s
| rr_worker : forall n s1 s2,
    requested_run s n s1 -> dead s1 = false -> worker_step s1 s2 -> requested_run s (S n) s2
| rr_caller : forall n i s1 s2,
    requested_run s n s1 -> dead s1 = false -> caller_step i s1 s2 -> req s2 = true ->
    requested_run s n s2.

(** {1 Races} *)

(** The calls that touch X outside the pose mutex, or start the thread that
    does. *)
Definition x_calls : list call :=
  [CallInitialize; CallInitGlobal; CallIterate; CallReset; CallUpdateNbr;
   CallWeights; CallWeightsReset; CallAnchor; CallStart].

(** {1 The deadlock} *)

(** The thread holds the pose mutex inside updateX and waits for the
    measurement mutex; the caller holds the measurement mutex inside
    updateMeasurementWeights and waits for the pose mutex. *)
Definition stuck (s : sys) : Prop :=
  dead s = false /\
  owner s MPoses = Some 0 /\ at_act s 0 (Lock MMeas) /\
  owner s MMeas = Some 1 /\ at_act s 1 (Lock MPoses) /\
  ~ exists s', step s s'.
