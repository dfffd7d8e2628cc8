(** The single-robot programs.
    Source: examples/SingleRobotExample.cpp, examples/ChordalInitializationExample.cpp,
    examples/SingleRobotGNCExample.cpp.  The dataset is the list returned by
    [read_g2o_file] (ModelIO.v). *)
From Coq Require Import List NArith ZArith Bool.
From Verif Require Import Base Num ModelTypes ModelPoseGraph ModelProblem ModelRobust ModelPoses ModelSolver ModelOptimizer ModelInit ModelAgent ModelExampleRun.
Import ListNotations.
Local Open Scope N_scope.
Local Open Scope res_scope.

Section Programs.
Context {S : Type} `{Num S}.
(** External linear algebra and the solvers of [initialize] (not called with the
    default parameters); sparse QR, singular value decomposition, determinant;
    ROPTLIB; the division of the GNC control parameter. *)
Context (x : Ext S) (ls : LocalSolvers S).
Context (qr_solve : Mx S -> (nat -> S) -> nat -> S) (svd_full : Mx S -> Mx S * Mx S) (determinant : Mx S -> S).
Context {St : Type} (L : PoseGraph S -> Lib S St) (mudiv : S -> S -> S).

(** SingleRobotExample.cpp:53, ChordalInitializationExample.cpp:38,
    SingleRobotGNCExample.cpp:31: [dataset[0].t.size()], 0 for an empty dataset. *)
Definition dataset_dim (dataset : list (Meas S)) : nat := match dataset with [] => O | m :: _ => mrows (mt m) end.

(** DPGO_types.h:53-61, default [ROptParameters]. *)
Definition default_ro : ROptParams S := mkRO true (nlit 1 100) (nlit 1 1000) true 3 (nofZ 100).

(** SingleRobotExample.cpp:61-75: odometry and loop closures; [p1], [p2] become
    [unsigned]. *)
Definition single_split (dataset : list (Meas S)) : list (Meas S) * list (Meas S) :=
  fold_left (fun st mIn =>
    let src := u32 (mp1 mIn) in
    let dst := u32 (mp2 mIn) in
    let m := new_meas 0 0 src dst (mR mIn) (mt mIn) (mkappa mIn) (mtau mIn) in
    if u32 (src + 1) =? dst then (fst st ++ [m], snd st) else (fst st, snd st ++ [m])) dataset ([], []).

(** PGOAgent.cpp:823-828 *)
Definition ag_localPGO (a : Agent S) : res (Mx S) :=
  do T <- solvePGO qr_solve svd_full determinant L (localMeasurements (a_pg a)) default_ro None;
  Ok (pa_X T).

(** SingleRobotExample.cpp:52-104: the trajectory and the printed cost. *)
Definition single_program (dataset : list (Meas S)) : res (Mx S * S) :=
  let d := dataset_dim dataset in
  let '(odometry, private_loop_closures) := single_split dataset in
  do g <- newPoseGraph 0 d d;
  do g <- setMeasurements g dataset;
  do a <- newAgent x 0 (ex_params d d 1 false);
  do a <- ag_setMeasurements a odometry private_loop_closures [];
  do a <- ag_initialize x ls a None;
  do X <- ag_localPGO a;
  do '(_, v) <- qp_f g X;
  Ok (X, nmul (nofZ 2) v).

(** ChordalInitializationExample.cpp:37-48: the trajectory and the printed cost. *)
Definition chordal_program (dataset : list (Meas S)) : res (PoseArr S * S) :=
  let d := dataset_dim dataset in
  do g <- newPoseGraph 0 d d;
  do g <- setMeasurements g dataset;
  do T <- chordalInitialization qr_solve svd_full determinant dataset;
  do '(_, v) <- qp_f g (pa_X T);
  Ok (T, nmul (nofZ 2) v).

(** SingleRobotGNCExample.cpp:29-41: the trajectory and the weighted measurements. *)
Definition gnc_program (measurements : list (Meas S)) : res (PoseArr S * list (Meas S)) :=
  check (match measurements with [] => false | _ => true end) (
  let d := dataset_dim measurements in
  do g <- newPoseGraph 0 d d;
  do g <- setMeasurements g measurements;
  do TOdom <- odometryInitialization (pg_odom g) None;
  solveRobustPGO mudiv
    (fun ms => solvePGO qr_solve svd_full determinant L ms (mkRO true (nofZ 1) (nlit 1 1000) true 50 (nofZ 100)) (Some TOdom))
    measurements (default_robust GNC_TLS)).
End Programs.
