(** The log files of an agent (C62). *)
From Coq Require Import List NArith Bool String QArith Reals.
From Verif Require Import Base Num Det ModelTypes ModelPoseGraph ModelPoses ModelAgent ModelIO ModelLog SpecCost SpecSolver SpecAgent SpecFrames SpecIO SpecLog
  ProofsAgent ProofsAgent2 ProofsAgent3 ProofsIOEx ProofsFramesEx ProofsLog ProofsLog2 ProofsLogEx.
Import ListNotations.
Local Open Scope string_scope.
Local Open Scope list_scope.

(** Logging neither changes what the agent does nor adds a failure. *)
Theorem C62_transparent {S} `{Num S} (F : Fmt S) full dir writable : forall x id p os0 a os fs, areach x id p os0 a -> Forall aop_ok os ->
  (p_d p = 2 \/ p_d p = 3)%nat -> (N.of_nat (num_poses a) < 1073741824)%N ->
  Forall (fun e => (N.of_nat (num_poses (e_post e)) < 1073741824)%N) (events x a os) ->
  forall a', ag_run x a os = Ok a' <-> exists fs', lg_run F full dir writable x (fs, a) os = Ok (fs', a').
Proof.
  exact (fun x id p os0 a os fs Ra HO Hd => transparent F full dir writable x os fs a (areach_inv _ _ _ _ _ Ra) HO
           (eq_ind_r (fun q => p_d q = 2%nat \/ p_d q = 3%nat) Hd (proj1 (proj2 (hist_all _ _ _ _ _ Ra))))).
Qed.
Print Assumptions C62_transparent.

(** Files other than the four logs are left alone, by any history; the logs too
    if logging is off or the file cannot be written. *)
Theorem C62_only_logs {S} `{Num S} (F : Fmt S) full dir writable : forall x id p os0 a os fs fs' a' n, areach x id p os0 a -> Forall aop_ok os ->
  lg_run F full dir writable x (fs, a) os = Ok (fs', a') -> fs' n <> fs n ->
  p_log p = true /\ writable n = true /\ exists f, In f logs /\ n = (dir ++ f)%string.
Proof.
  exact (fun x id p os0 a os fs fs' a' n Ra HO E N =>
    match frame_run F full dir writable x os fs a fs' a' n (areach_inv _ _ _ _ _ Ra) HO E with
    | or_introl Q => False_ind _ (N Q)
    | or_intror Q => eq_ind (a_params a) (fun q => p_log q = true /\ _) Q p (proj1 (proj2 (hist_all _ _ _ _ _ Ra)))
    end).
Qed.
Print Assumptions C62_only_logs.

(** Which call writes which file. *)
Theorem C62_who_writes {S} `{Num S} (F : Fmt S) full dir writable : forall x fs (a : Agent S) o fs' a' n,
  lg_step F full dir writable x (fs, a) o = Ok (fs', a') ->
  fs' n = fs n \/ p_log (a_params a) = true /\ writable n = true /\
   (o = AReset /\ (n = (dir ++ "measurements.csv")%string \/ n = (dir ++ "X.txt")%string \/
                   n = (dir ++ "trajectory_optimized.csv")%string /\ dimension a <> 2%nat /\ a_state a = INITIALIZED /\ a_anchor a <> None) \/
    entered a o a' /\ dimension a' <> 2%nat /\ n = (dir ++ "trajectory_initial.csv")%string).
Proof. exact (lg_step_frame F full dir writable). Qed.
Print Assumptions C62_who_writes.

Example C62_example :
  files (qrun 0 (AAdd (qodo 0 0) :: session 1) (fun _ => None)) =
    Some [Some (text [head_m; "0,0,0,1,0,0,0,1,1,0,0,1,2,1,1"]);
          Some (text [head_t; "0,0,0,0,1,0,0,0"; "1,0,0,0,1,1,2,3"]);
          Some (String.concat NL ["1, 0, 0, 0, 1, 0, 0, 1"; "0, 1, 0, 0, 0, 1, 0, 2"; "0, 0, 1, 0, 0, 0, 1, 3"]);
          Some (text [head_t; "0,0,0,0,1,0,0,0"; "1,0,0,0,1,1,2,3"])].
Proof. exact (proj1 ex_sessions). Qed.

(** ** What reset writes (exact text of the numbers at hand) *)

(** The measurements with their weights; an agent without measurements leaves an
    earlier file. *)
Theorem C62_measurements (F : Fmt R) full dir writable : forall x id p os a fs fs' a', areach x id p os a -> p_log p = true -> p_d p = 3%nat ->
  writable (dir ++ "measurements.csv")%string = true -> lg_step F full dir writable x (fs, a) AReset = Ok (fs', a') ->
  let ms := measurements (a_pg a) in
  (ms <> [] -> Forall small_ids ms -> Forall (fun m => rotation 3 (mR m)) ms -> Forall (fun m => Forall (fmt_at F (fun v => v)) (meas_nums m)) ms ->
     exists ms', loadMeasurements F fs' (dir ++ "measurements.csv")%string true = Ok ms' /\ Forall2 same_meas ms ms') /\
  (ms = [] -> fs' (dir ++ "measurements.csv")%string = fs (dir ++ "measurements.csv")%string).
Proof. exact (reset_measurements F full dir writable). Qed.
Print Assumptions C62_measurements.

(** The rounded trajectory relative to the anchor, one pose per variable. *)
Theorem C62_trajectory (F : Fmt R) full dir writable : forall x id p os a fs fs' a' Xa, areach x id p os a -> p_log p = true -> p_d p = 3%nat ->
  let r := p_r p in let n := num_poses a in
  (N.of_nat n < 1073741824)%N -> writable (dir ++ "trajectory_optimized.csv")%string = true ->
  a_state a = INITIALIZED -> a_anchor a = Some Xa -> det_ok (x_det x) 3 -> svds_ok x r 3 Xa (a_X a) n ->
  lg_step F full dir writable x (fs, a) AReset = Ok (fs', a') ->
  exists T, ag_getTrajectoryInGlobalFrame x a = Ok (Some T) /\
    ((forall i, (i < n)%nat -> Forall (fmt_at F (fun v => v)) (pose_nums (pa_X T) i)) ->
     exists T', loadTrajectory F dir fs' "trajectory_optimized.csv" = Ok (Some T') /\ mx_eq T' (pa_X T) /\
       forall i, (i < n)%nat -> let B := pblk (mkPA 3 3 n T') i in
         rounds 3 (seen r Xa (pblk (a_X a) i)) B /\ forall k, (k < 3)%nat -> B k 3%nat = (seen r Xa (pblk (a_X a) i) k 3%nat - seen r Xa Xa k 3%nat)%R).
Proof. exact (reset_trajectory F full dir writable). Qed.
Print Assumptions C62_trajectory.

Example C62_reset_example : exists a fs' a', areach rx 0 rp3 rops2 a /\ lg_step rfmt rfull "d/" all_ok rx (none_fs, a) AReset = Ok (fs', a') /\
  (exists ms', loadMeasurements rfmt fs' "d/measurements.csv" true = Ok ms' /\ Forall2 same_meas [rodo3] ms') /\
  (exists T', loadTrajectory rfmt "d/" fs' "trajectory_optimized.csv" = Ok (Some T') /\ mx_eq T' rT3).
Proof. exact ex_reset. Qed.

(** Without an anchor, before initialisation or in the plane: an earlier file stays. *)
Theorem C62_no_trajectory (F : Fmt R) full dir writable : forall x id p os a fs fs' a', areach x id p os a ->
  lg_step F full dir writable x (fs, a) AReset = Ok (fs', a') ->
  a_state a <> INITIALIZED \/ a_anchor a = None \/ p_d p = 2%nat ->
  fs' (dir ++ "trajectory_optimized.csv")%string = fs (dir ++ "trajectory_optimized.csv")%string.
Proof. exact (reset_no_trajectory F full dir writable). Qed.
Print Assumptions C62_no_trajectory.

(** The lifted iterate: a line per row. *)
Theorem C62_iterate (F : Fmt R) full dir writable : forall x id p os a fs fs' a', areach x id p os a -> p_log p = true -> writable (dir ++ "X.txt")%string = true ->
  lg_step F full dir writable x (fs, a) AReset = Ok (fs', a') -> let X := pa_X (a_X a) in
  (forall v, has nl (full v) = false /\ full v <> "") -> mrows X <> 0%nat -> mcols X <> 0%nat ->
  exists c rows, fs' (dir ++ "X.txt")%string = Some c /\ lines c = map (String.concat ", ") rows /\ List.length rows = mrows X /\
    forall i l, nth_error rows i = Some l -> row_texts full X i l.
Proof. exact (reset_iterate F full dir writable). Qed.
Print Assumptions C62_iterate.

(** In the plane the measurements are lost: the file is emptied. *)
Theorem C62_plane_refuted (F : Fmt R) full dir writable : forall x id p os a fs fs' a', areach x id p os a -> p_log p = true -> p_d p = 2%nat ->
  writable (dir ++ "measurements.csv")%string = true -> lg_step F full dir writable x (fs, a) AReset = Ok (fs', a') ->
  measurements (a_pg a) <> [] -> fs' (dir ++ "measurements.csv")%string = Some "".
Proof. exact (reset_plane F full dir writable). Qed.
Print Assumptions C62_plane_refuted.

(** ** What entering the global frame writes: the trajectory whose lift is the iterate *)
Theorem C62_initial (F : Fmt R) full dir writable : forall x id p os a o fs fs' a' YL (T : Mx R), areach x id p os a -> aop_ok o -> p_log p = true -> p_d p = 3%nat ->
  let n := num_poses a' in
  (N.of_nat n < 1073741824)%N -> writable (dir ++ "trajectory_initial.csv")%string = true ->
  lg_step F full dir writable x (fs, a) o = Ok (fs', a') -> entered a o a' ->
  a_YLift a' = Some YL -> orthonormal (p_r p) 3 YL ->
  mrows T = 3%nat -> mcols T = (4 * n)%nat -> mx_eq (mmul YL T) (pa_X (a_X a')) ->
  (forall i, (i < n)%nat -> rotation 3 (mblock T 0 (4 * i) 3 3)) -> (forall i, (i < n)%nat -> Forall (fmt_at F (fun v => v)) (pose_nums T i)) ->
  exists T', loadTrajectory F dir fs' "trajectory_initial.csv" = Ok (Some T') /\ mx_eq T' T.
Proof. exact (enter_contents F full dir writable). Qed.
Print Assumptions C62_initial.

Example C62_initial_example : exists a a', areach rx 0 rp3 rops0 a /\ ag_step rx a rop1 = Ok a' /\ entered a rop1 a' /\
  exists fs', lg_step rfmt rfull "d/" all_ok rx (none_fs, a) rop1 = Ok (fs', a') /\
  exists T', loadTrajectory rfmt "d/" fs' "trajectory_initial.csv" = Ok (Some T') /\ mx_eq T' rT3.
Proof. exact ex_enter. Qed.

(** ** Findings *)

(** A second session without an anchor leaves the first session's trajectory beside
    its own iterate. *)
Theorem C62_stale_refuted :
  files (qrun 0 (AAdd (qodo 0 0) :: session 1 ++ session2 5) (fun _ => None)) =
    Some [Some (text [head_m; "0,0,0,1,0,0,0,1,1,0,0,1,2,1,1"]);
          Some (text [head_t; "0,0,0,0,1,0,0,0"; "1,0,0,0,1,1,2,3"]);
          Some (String.concat NL ["1, 0, 0, 0, 1, 0, 0, 5"; "0, 1, 0, 0, 0, 1, 0, 2"; "0, 0, 1, 0, 0, 0, 1, 3"]);
          Some (text [head_t; "0,0,0,0,1,0,0,0"; "1,0,0,0,1,5,2,3"])].
Proof. exact (proj2 ex_sessions). Qed.
Print Assumptions C62_stale_refuted.

(** Robots with the same log directory overwrite each other's files. *)
Theorem C62_shared_directory_refuted : exists l, team (fun _ => None) = Some (Some (text [head_m; "1,4,1,5,0,0,0,1,1,0,0,1,2,1,1"]) :: l).
Proof. exact ex_team. Qed.
Print Assumptions C62_shared_directory_refuted.
