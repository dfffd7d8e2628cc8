(** Files: g2o input (C44), measurement logs (C45), trajectory logs (C46). *)
From Coq Require Import List NArith ZArith Bool String Permutation QArith Reals.
From Verif Require Import Base Num Det ModelTypes ModelIO SpecCost SpecSolver SpecIO SpecIO2 ProofsIO ProofsQuat ProofsIO2 ProofsIO3 ProofsIO4 ProofsAgentEx ProofsIOEx.
Import ListNotations.
Local Open Scope string_scope.
Local Open Scope list_scope.

(** ** C44 *)

(** A well-formed file, any mix of vertex and edge lines: the measurements of the
    edges in file order, and one more than the largest index. *)
Theorem C44_wellformed {S} `{Num S} (G : G2oExt S) : forall fs f c its,
  fs f = Some c -> Forall2 (item_line G) its (lines c) -> Forall small_pose (flat_map item_ids its) ->
  exists ms n, read_g2o G fs f = Ok (ms, (n + 1)%N) /\ items_meas G its ms /\
    (forall i, In i (flat_map item_ids its) -> (i <= n)%N) /\ (n = 0%N \/ In n (flat_map item_ids its)).
Proof. exact (g2o_wellformed G). Qed.
Print Assumptions C44_wellformed.

Example C44_wellformed_example : lines (text [v3; e3; v3; e2]) = [v3; e3; v3; e2] /\
  Forall2 (item_line qscan) items [v3; e3; v3; e2] /\ Forall small_pose (flat_map item_ids items) /\
  read_brief [v3; e3; v3; e2] = Some ([m3; m2], 8%N).
Proof. exact (conj eq_refl (conj (proj1 ex_items) (conj (proj2 ex_items) (proj1 ex_read)))). Qed.

(** Any file at all that is read: only known tags, as many measurements as edge
    tags, and the fields that do not depend on the numbers. *)
Theorem C44_shape {S} `{Num S} (G : G2oExt S) : forall fs f c ms n, fs f = Some c -> read_g2o G fs f = Ok (ms, n) ->
  let ts := tags "" (lines c) in
  Forall (fun t => is_edge t || is_vertex t = true) ts /\ List.length ms = List.length (filter is_edge ts) /\
  Forall (fun m => mr1 m = 0%N /\ mr2 m = 0%N /\ mweight m = n1 /\ mfixed m = (u64 (mp1 m + 1) =? mp2 m)%N) ms /\
  n = u64 (largest ms + 1).
Proof. exact (g2o_shape G). Qed.
Print Assumptions C44_shape.

(** Any other tag aborts. *)
Theorem C44_unknown {S} `{Num S} (G : G2oExt S) : forall fs f f' pre l post r c c',
  fs f' = Some c' -> lines c' = pre -> read_g2o G fs f' = Ok r ->
  fs f = Some c -> lines c = pre ++ l :: post -> blank l = false -> is_edge (tag_of "" l) || is_vertex (tag_of "" l) = false ->
  read_g2o G fs f = Abort.
Proof. exact (g2o_unknown G). Qed.
Print Assumptions C44_unknown.

Example C44_unknown_example : read_g2o qscan (file [v3; e3; "FIX 0"; e2]) "f" = Abort /\
  blank "FIX 0" = false /\ is_edge (tag_of "" "FIX 0") || is_vertex (tag_of "" "FIX 0") = false.
Proof. vm_compute. repeat split. Qed.

(** Vertex lines contribute nothing. *)
Theorem C44_vertex {S} `{Num S} (G : G2oExt S) : forall fs f f' pre v post c c',
  fs f = Some c -> lines c = pre ++ v :: post -> fs f' = Some c' -> lines c' = pre ++ post ->
  is_vertex (tag_of "" v) = true -> (match post with [] => True | l :: _ => blank l = false end) ->
  read_g2o G fs f = read_g2o G fs f'.
Proof. exact (g2o_vertex G). Qed.
Print Assumptions C44_vertex.

(** A blank line after an edge repeats that edge. *)
Theorem C44_blank {S} `{Num S} (G : G2oExt S) : forall fs f f' pre l c c' ms n,
  fs f' = Some c' -> lines c' = pre -> read_g2o G fs f' = Ok (ms, n) ->
  is_edge (last (tags "" pre) "") = true -> fs f = Some c -> lines c = pre ++ [l] -> blank l = true ->
  exists ms0 m, ms = ms0 ++ [m] /\ read_g2o G fs f = Ok (ms ++ [m], n).
Proof. exact (g2o_blank G). Qed.
Print Assumptions C44_blank.

Example C44_blank_example : read_brief [v3; e3; ""; e2; " "; v3] = Some ([m3; m3; m2; m2], 8%N) /\ is_vertex (tag_of "" v3) = true.
Proof. exact (conj (proj2 ex_read) eq_refl). Qed.

(** A line cut short: undefined numbers when nothing of that name was read
    before, else those of an earlier line. *)
Theorem C44_short_refuted : exists i j, read_brief [e3; "EDGE_SE2 4 5"] = None /\
  read_brief [e2; "EDGE_SE2 4 5"] = Some ([m2; (i, j, true, 9%Q, 2%Q, [[1; 0]; [0; 1]]%Q, [[-1]; [5]]%Q)], 8%N) /\ i = 4%N /\ j = 5%N.
Proof. exact short_line. Qed.
Print Assumptions C44_short_refuted.

(** The count is taken in double precision. *)
Theorem C44_count_refuted : exists ms,
  read_g2o qscan (file ["EDGE_SE2 0 9007199254740993 0 0 0 1 0 0 1 0 1"]) "f" = Ok (ms, 9007199254740993%N) /\
  exists m, In m ms /\ mp2 m = 9007199254740993%N.
Proof. exact large_count. Qed.
Print Assumptions C44_count_refuted.

(** Precisions: the harmonic mean of the translation block, half of it for the
    rotation block; positive for positive definite information. *)
Theorem C44_trace2 : forall a b c : R, (a * c - b * b)%R <> 0%R ->
  exists p q r, inverse 2 (sym2 a b c) (sym2 p q r) /\ tr_inv2 a b c = (p + r)%R.
Proof. exact tr_inv2_spec. Qed.
Print Assumptions C44_trace2.

Theorem C44_trace3 : forall a b c d e f : R, (a * (d * f - e * e) - b * (b * f - c * e) + c * (b * e - c * d))%R <> 0%R ->
  exists p q r s t u, inverse 3 (sym3 a b c d e f) (sym3 p q r s t u) /\ tr_inv3 a b c d e f = (p + s + u)%R.
Proof. exact tr_inv3_spec. Qed.
Print Assumptions C44_trace3.

Theorem C44_precision2 : forall a b c : R, pd2 a b c -> (0 < 2 / tr_inv2 a b c)%R.
Proof. exact tau2_positive. Qed.
Print Assumptions C44_precision2.

Theorem C44_precision3 : forall a b c d e f : R, pd3 a b c d e f ->
  (0 < 3 / tr_inv3 a b c d e f)%R /\ (0 < 3 / (2 * tr_inv3 a b c d e f))%R.
Proof. exact (fun a b c d e f P => conj (tau3_positive a b c d e f P) (kappa3_positive a b c d e f P)). Qed.
Print Assumptions C44_precision3.

Example C44_isotropic : forall s, (0 < s)%R ->
  (2 / tr_inv2 s 0 s = s /\ 3 / tr_inv3 s 0 0 s 0 s = s /\ 3 / (2 * tr_inv3 s 0 0 s 0 s) = s / 2)%R.
Proof. exact isotropic_precision. Qed.

(** The rotation block is a rotation for a unit quaternion, and need not be for
    another: the reader does not normalise. *)
Theorem C44_rotation : forall q : Quat R, (qx q * qx q + qy q * qy q + qz q * qz q + qw q * qw q = 1)%R -> rotation 3 (q_rot q).
Proof. exact unit_quat_rotation. Qed.
Print Assumptions C44_rotation.

Theorem C44_rotation_refuted : ~ rotation 3 (q_rot (mkQuat 1 0 0 1)%R).
Proof. exact nonunit_refuted. Qed.
Print Assumptions C44_rotation_refuted.

(** It turns vectors as the quaternion does: q v q*. *)
Theorem C44_quaternion : forall q : Quat R, (qnorm2 q = 1)%R -> turns q (q_rot q).
Proof. exact turns_unit. Qed.
Print Assumptions C44_quaternion.

(** ** C45 *)

(** Writing then loading: same list, same order, every field once through its
    text; no other file touched. *)
Theorem C45_roundtrip {S} `{Num S} (F : Fmt S) rnd dir writable : forall fs ms filename lw, ms <> [] -> writable (dir ++ filename)%string = true ->
  Forall meas3 ms -> Forall small_ids ms -> Forall (fun m => Forall (fmt_at F rnd) (meas_nums m)) ms ->
  exists fs', logMeasurements F dir writable fs ms filename = Ok fs' /\
    (forall n, n <> (dir ++ filename)%string -> fs' n = fs n) /\
    exists ms', loadMeasurements F fs' (dir ++ filename)%string lw = Ok ms' /\ Forall2 (reread rnd lw) ms ms'.
Proof. exact (meas_roundtrip F rnd dir writable). Qed.
Print Assumptions C45_roundtrip.

Example C45_example : log_then "d/" [lm 2 1; lm 9 0] "d/m.csv" true =
   Some [(0%N, 2%N, 1%N, 3%N, (2%N, 3%N, true, 7%Q, 8%Q, [[1; 0; 0]; [0; 1; 0]; [0; 0; 1]]%Q, [[4]; [-5]; [6]]%Q), 1%Q);
         (0%N, 9%N, 1%N, 3%N, (9%N, 3%N, true, 7%Q, 8%Q, [[1; 0; 0]; [0; 1; 0]; [0; 0; 1]]%Q, [[4]; [-5]; [6]]%Q), 0%Q)] /\
   Forall meas3 [lm 2 1; lm 9 0] /\ Forall small_ids [lm 2 1; lm 9 0] /\
   Forall (fun m => Forall (fmt_at qfmt (fun x => x)) (meas_nums m)) [lm 2 1; lm 9 0].
Proof. exact ex_log. Qed.

(** Over the reals, when the text of the numbers at hand is exact: the very same
    measurements. *)
Theorem C45_exact (F : Fmt R) dir writable : forall fs ms filename, ms <> [] -> writable (dir ++ filename)%string = true ->
  Forall meas3 ms -> Forall small_ids ms -> Forall (fun m => rotation 3 (mR m)) ms ->
  Forall (fun m => Forall (fmt_at F (fun x => x)) (meas_nums m)) ms ->
  exists fs' ms', logMeasurements F dir writable fs ms filename = Ok fs' /\ loadMeasurements F fs' (dir ++ filename)%string true = Ok ms' /\
    Forall2 (fun m m' => mr1 m' = mr1 m /\ mr2 m' = mr2 m /\ mp1 m' = mp1 m /\ mp2 m' = mp2 m /\ mkappa m' = mkappa m /\ mtau m' = mtau m /\
      mfixed m' = mfixed m /\ mweight m' = mweight m /\ mx_eq (mR m') (mR m) /\ mx_eq (mt m') (mt m)) ms ms'.
Proof. exact (meas_exact F dir writable). Qed.
Print Assumptions C45_exact.

Example C45_exact_example : Forall meas3 [rlm] /\ Forall small_ids [rlm] /\ Forall (fun m => rotation 3 (mR m)) [rlm] /\
  Forall (fun m => Forall (fmt_at rfmt (fun x => x)) (meas_nums m)) [rlm].
Proof. exact ex_exact. Qed.

(** What is in the file: a header naming the columns and a row per measurement
    with the matching texts; and what such a file, written by anyone, is read as. *)
Theorem C45_columns (F : Fmt R) dir writable : forall fs ms filename, ms <> [] -> writable (dir ++ filename)%string = true -> Forall meas3 ms -> Forall (fun m => rotation 3 (mR m)) ms ->
  exists fs' vs, logMeasurements F dir writable fs ms filename = Ok fs' /\
    fs' (dir ++ filename)%string = Some (table (titles meas_cols) meas_cols vs) /\ Forall2 (meas_written F) ms vs.
Proof. exact (meas_columns F dir writable). Qed.
Print Assumptions C45_columns.

Theorem C45_reads (F : Fmt R) : forall fs filename header vs lw, fs filename = Some (table header meas_cols vs) -> has nl header = false -> Forall (meas_readable F) vs ->
  exists ms, loadMeasurements F fs filename lw = Ok ms /\ Forall2 (meas_read F lw) vs ms.
Proof. exact (meas_reads F "" (fun _ => true)). Qed.
Print Assumptions C45_reads.

Example C45_reads_example : meas_readable rfmt row0 /\ traj_readable rfmt row0 0 /\ Permutation [0%N] (ids_upto 1).
Proof. exact ex_row0. Qed.

(** In the plane the file is emptied and nothing written. *)
Theorem C45_plane {S} `{Num S} (F : Fmt S) dir writable : forall fs m ms filename lw, writable (dir ++ filename)%string = true -> mrows (mR m) = 2%nat ->
  exists fs', logMeasurements F dir writable fs (m :: ms) filename = Ok fs' /\ fs' (dir ++ filename)%string = Some "" /\
    (forall n, n <> (dir ++ filename)%string -> fs' n = fs n) /\ loadMeasurements F fs' (dir ++ filename)%string lw = Ok [].
Proof. exact (meas_2d F dir writable). Qed.
Print Assumptions C45_plane.

Theorem C45_nothing {S} `{Num S} (F : Fmt S) dir writable : forall fs filename lw,
  logMeasurements F dir writable fs [] filename = Ok fs /\ (fs filename = None -> loadMeasurements F fs filename lw = Ok []).
Proof. exact (fun fs filename lw => conj (meas_none F dir writable fs filename) (meas_missing F fs filename lw)). Qed.
Print Assumptions C45_nothing.

(** The log directory is used for writing only: the same name does not load. *)
Theorem C45_directory_refuted : exists ms fs', ms <> [] /\
  logMeasurements qfmt "d/" (fun _ => true) (fun _ => None) ms "m.csv" = Ok fs' /\
  Forall meas3 ms /\ Forall small_ids ms /\ loadMeasurements qfmt fs' "m.csv" true = Ok [].
Proof. exact directory_lost. Qed.
Print Assumptions C45_directory_refuted.

(** Ids of 2^31 or more are written but make the loader throw. *)
Theorem C45_large_id_refuted : exists fs', logMeasurements qfmt "" (fun _ => true) (fun _ => None) [lm 2147483648 1] "m.csv" = Ok fs' /\
  loadMeasurements qfmt fs' "m.csv" true = Abort.
Proof. exact big_id_lost. Qed.
Print Assumptions C45_large_id_refuted.

(** ** C46 *)

Theorem C46_roundtrip {S} `{Num S} (F : Fmt S) dir writable rnd : forall fs n T filename, writable (dir ++ filename)%string = true -> (n < 1073741824)%N ->
  mrows T = 3%nat -> mcols T = (4 * N.to_nat n)%nat -> (forall i, (i < N.to_nat n)%nat -> Forall (fmt_at F rnd) (pose_nums T i)) ->
  exists fs', logTrajectory F dir writable fs 3 n T filename = Ok fs' /\ (forall m, m <> (dir ++ filename)%string -> fs' m = fs m) /\
    exists T', loadTrajectory F dir fs' filename = Ok (Some T') /\ mrows T' = 3%nat /\ mcols T' = (4 * N.to_nat n)%nat /\
      forall i, (i < N.to_nat n)%nat ->
        (forall a b, (a < 3)%nat -> (b < 3)%nat -> T' a (4 * i + b)%nat = reread_rot rnd (mblock T 0 (4 * i) 3 3) a b) /\
        (forall a, (a < 3)%nat -> T' a (4 * i + 3)%nat = rnd (T a (4 * i + 3)%nat)).
Proof. exact (traj_roundtrip F dir writable rnd). Qed.
Print Assumptions C46_roundtrip.

Theorem C46_exact (F : Fmt R) dir writable : forall fs n (T : Mx R) filename, writable (dir ++ filename)%string = true ->
  (n < 1073741824)%N -> mrows T = 3%nat -> mcols T = (4 * N.to_nat n)%nat -> (forall i, (i < N.to_nat n)%nat -> rotation 3 (mblock T 0 (4 * i) 3 3)) ->
  (forall i, (i < N.to_nat n)%nat -> Forall (fmt_at F (fun x => x)) (pose_nums T i)) ->
  exists fs' T', logTrajectory F dir writable fs 3 n T filename = Ok fs' /\ loadTrajectory F dir fs' filename = Ok (Some T') /\ mx_eq T' T.
Proof. exact (traj_exact F dir writable). Qed.
Print Assumptions C46_exact.

Example C46_exact_example : rotation 3 (mblock rtraj 0 (4 * 0) 3 3) /\ Forall (fmt_at rfmt (fun x => x)) (pose_nums rtraj 0).
Proof. exact ex_traj_exact. Qed.

(** The contents by column names, written and read. *)
Theorem C46_columns (F : Fmt R) dir writable : forall fs n (T : Mx R) filename, writable (dir ++ filename)%string = true ->
  (n < 1073741824)%N -> mrows T = 3%nat -> mcols T = (4 * N.to_nat n)%nat -> (forall i, (i < N.to_nat n)%nat -> rotation 3 (mblock T 0 (4 * i) 3 3)) ->
  exists fs' vs, logTrajectory F dir writable fs 3 n T filename = Ok fs' /\
    fs' (dir ++ filename)%string = Some (table (titles traj_cols) traj_cols vs) /\ List.length vs = N.to_nat n /\
    forall i v, nth_error vs i = Some v -> traj_written F T i v.
Proof. exact (traj_columns F dir writable). Qed.
Print Assumptions C46_columns.

Theorem C46_reads (F : Fmt R) dir : forall fs filename header vs ids, fs (dir ++ filename)%string = Some (table header traj_cols vs) -> has nl header = false ->
  (N.of_nat (List.length vs) < 1073741824)%N -> Forall2 (traj_readable F) vs ids ->
  (Permutation ids (ids_upto (List.length vs)) ->
     exists T, loadTrajectory F dir fs filename = Ok (Some T) /\ mrows T = 3%nat /\ mcols T = (4 * List.length vs)%nat /\
       forall k v i, nth_error vs k = Some v -> nth_error ids k = Some (N.of_nat i) -> traj_read F v T i) /\
  (~ Permutation ids (ids_upto (List.length vs)) -> loadTrajectory F dir fs filename = Abort).
Proof. exact (traj_reads F dir (fun _ => true)). Qed.
Print Assumptions C46_reads.

(** Any file: what loads has the ids 0..n-1 in some order, each pose in its
    block; everything else whose rows can be read throws. *)
Theorem C46_accepts {S} `{Num S} (F : Fmt S) dir : forall fs filename content, fs (dir ++ filename)%string = Some content -> few (tl (lines content)) ->
  forall T, loadTrajectory F dir fs filename = Ok (Some T) ->
  exists rows, traj_rows F "" (tl (lines content)) rows /\ Permutation (map fst rows) (ids_upto (List.length rows)) /\
    mrows T = 3%nat /\ mcols T = (4 * List.length rows)%nat /\ forall i P, In (N.of_nat i, P) rows -> pose_block T i P.
Proof. exact (load_accepts F dir). Qed.
Print Assumptions C46_accepts.

Theorem C46_rejects {S} `{Num S} (F : Fmt S) dir : forall fs filename content rows, fs (dir ++ filename)%string = Some content -> few (tl (lines content)) ->
  traj_rows F "" (tl (lines content)) rows ->
  (Permutation (map fst rows) (ids_upto (List.length rows)) -> exists T, loadTrajectory F dir fs filename = Ok (Some T)) /\
  (~ Permutation (map fst rows) (ids_upto (List.length rows)) -> loadTrajectory F dir fs filename = Abort).
Proof. exact (load_rejects F dir). Qed.
Print Assumptions C46_rejects.

Theorem C46_repeated {S} `{Num S} (F : Fmt S) dir : forall fs filename content rows, fs (dir ++ filename)%string = Some content -> few (tl (lines content)) ->
  traj_rows F "" (tl (lines content)) rows -> ~ NoDup (map fst rows) -> loadTrajectory F dir fs filename = Abort.
Proof. exact (load_repeated F dir). Qed.
Print Assumptions C46_repeated.

Example C46_example : (match logTrajectory qfmt "d/" (fun _ => true) (fun _ => None) 3 2 traj2 "t.csv" with
   | Ok fs => match loadTrajectory qfmt "d/" fs "t.csv" with Ok (Some T) => Some (dump T) | _ => None end | _ => None end) = Some (dump traj2) /\
  (forall i, (i < 2)%nat -> Forall (fmt_at qfmt (fun x => x)) (pose_nums traj2 i)) /\
  traj_then ["h"; "1,0,0,0,1,1,2,3"; "0,0,0,0,1,4,5,6"] = Some [[1; 0; 0; 4; 1; 0; 0; 1]; [0; 1; 0; 5; 0; 1; 0; 2]; [0; 0; 1; 6; 0; 0; 1; 3]]%Q /\
  traj_then ["h"; "0,0,0,0,1,1,2,3"; "0,0,0,0,1,4,5,6"] = None /\ traj_then ["h"; "0,0,0,0,1,1,2,3"; "2,0,0,0,1,4,5,6"] = None.
Proof. exact ex_traj. Qed.

(** In the plane nothing is written. *)
Theorem C46_plane {S} `{Num S} (F : Fmt S) dir writable : forall fs n T filename, logTrajectory F dir writable fs 2 n T filename = Ok fs.
Proof. exact (traj_2d F dir writable). Qed.
Print Assumptions C46_plane.

(** A row with too few fields is not rejected. *)
Theorem C46_short_refuted : traj_then ["h"; "0,0,0,0,5"] = Some [[1; 0; 0; 5]; [0; 1; 0; 5]; [0; 0; 1; 5]]%Q.
Proof. exact short_row. Qed.
Print Assumptions C46_short_refuted.
