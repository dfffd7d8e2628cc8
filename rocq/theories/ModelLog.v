(** The log files of an agent.
    Source: src/PGOAgent.cpp:367-371 and 438-452, src/DPGO_utils.cpp:70-80
    ([writeMatrixToFile]); the logger is in ModelIO.v.  Console output is left out. *)
From Coq Require Import List NArith ZArith Bool String.
From Verif Require Import Base SMap Num ModelTypes ModelPoseGraph ModelPoses ModelAgent ModelIO.
Import ListNotations.
Local Open Scope string_scope.
Local Open Scope res_scope.

Section Log.
Context {S : Type} `{Num S}.
(** Text forms of doubles: [operator<<], and Eigen's [FullPrecision]; the log
    directory; whether [open] for writing succeeds. *)
Context (F : Fmt S) (full : S -> string) (dir : string) (writable : string -> bool).

(** DPGO_utils.cpp:70-80 with [IOFormat(FullPrecision, DontAlignCols, ", ", "\n")];
    Eigen prints nothing for a matrix without coefficients. *)
Definition matrix_text (M : Mx S) : string :=
  if (mrows M * mcols M =? 0)%nat then "" else
  String.concat NL (map (fun i => String.concat ", " (map (fun j => full (M i j)) (seq 0 (mcols M)))) (seq 0 (mrows M))).
Definition writeMatrixToFile (fs : FS) (M : Mx S) (filename : string) : FS :=
  if negb (writable filename) then fs else put fs filename (matrix_text M).

(** PGOAgent.cpp:438-452 (in [reset]) *)
Definition log_reset (x : Ext S) (fs : FS) (a : Agent S) : res FS :=
  if negb (p_log (a_params a)) then Ok fs else
  do fs <- logMeasurements F dir writable fs (measurements (a_pg a)) "measurements.csv";
  do o <- ag_getTrajectoryInGlobalFrame x a;
  do fs <- match o with
           | Some T => logTrajectory F dir writable fs (dimension a) (N.of_nat (num_poses a)) (pa_X T) "trajectory_optimized.csv"
           | None => Ok fs
           end;
  Ok (writeMatrixToFile fs (pa_X (a_X a)) (dir ++ "X.txt")).

(** PGOAgent.cpp:367-371 (in [initializeInGlobalFrame], called with [TW]): the
    trajectory of lines 328-333.  [a] is the agent afterwards; its local trajectory
    and number of poses are those at the call. *)
Definition log_enter (fs : FS) (a : Agent S) (TW : PoseArr S) : res FS :=
  if negb (p_log (a_params a)) then Ok fs else
  do T <- opt_value (a_TLocal a);
  do T <- transform_all TW (num_poses a) T;
  logTrajectory F dir writable fs (dimension a) (N.of_nat (num_poses a)) (pa_X T) "trajectory_initial.csv".

(** The calls that reach [initializeInGlobalFrame], and its argument: directly;
    from [initialize] (PGOAgent.cpp:297-300); from [updateNeighborPoses] (662-665). *)
Definition enters (x : Ext S) (a : Agent S) (o : aop S) : res (option (PoseArr S)) :=
  match o with
  | AInitGlobal TW => Ok (Some TW)
  | AInit ls T =>
      if state_eqb (a_state a) WAIT_FOR_DATA && negb (pg_n (a_pg a) =? 0)%N && ((a_id a =? 0)%N || negb (p_multi (a_params a)))
      then do I <- pose_identity (p_d (a_params a)); Ok (Some I) else Ok None
  | AUpdNbr k dict =>
      if nbr_ready a k && state_eqb (a_state a) WAIT_FOR_INITIALIZATION then ag_twoStage x a k dict else Ok None
  | _ => Ok None
  end.

(** One call: the agent and the files. *)
Definition lg_step (x : Ext S) (st : FS * Agent S) (o : aop S) : res (FS * Agent S) :=
  let '(fs, a) := st in
  do fs <- match o with AReset => log_reset x fs (ag_endOptimizationLoop a) | _ => Ok fs end;
  do a' <- ag_step x a o;
  do e <- enters x a o;
  do fs <- match e with Some TW => log_enter fs a' TW | None => Ok fs end;
  Ok (fs, a').
Definition lg_run (x : Ext S) (st : FS * Agent S) (os : list (aop S)) : res (FS * Agent S) := foldM (lg_step x) st os.
End Log.
