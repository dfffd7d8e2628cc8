(** The Riemannian optimiser of one robot.
    Source: src/QuadraticOptimizer.cpp, QuadraticProblem.cpp:56-83 and
    include/DPGO/DPGO_types.h:44-107.  ROPTLIB's manifold operations and its
    trust-region solver are parameters; timing and console output are left out. *)
From Coq Require Import List NArith ZArith Bool.
From Verif Require Import Base Num ModelTypes ModelPoseGraph ModelProblem.
Import ListNotations.
Local Open Scope res_scope.
Local Open Scope num_scope.

Section Optimizer.
Context {S : Type} `{Num S}.

(** DPGO_types.h:44-86 [ROptParameters]; [RTR_tCG_iterations] only reaches the
    solver. *)
Record ROptParams := mkRO {
  ro_rtr : bool; ro_tol : S; ro_step : S; ro_usepre : bool; ro_iters : Z; ro_radius : S }.

(** DPGO_types.h:91-107 [ROPTResult] *)
Record ROptResult := mkRR { rr_success : bool; rr_fInit : S; rr_gnInit : S; rr_fOpt : S; rr_gnOpt : S }.

(** ROPTLIB and Cholmod: projection of a vector to the tangent space at a point,
    retraction, the solver object ([st]: its state; run with initial and maximal
    trust-region radius; was the last step accepted; the iterate it ends with),
    whether a Cholesky factorisation succeeds, and solving with it.  The solver
    may also fill the pose graph's preconditioner; that is left to [Optimizer] of
    ModelAgent.v. *)
Record Lib (St : Type) := mkLib {
  l_proj : Mx S -> Mx S -> Mx S; l_retr : Mx S -> Mx S -> Mx S;
  l_new : Mx S -> St; l_run : St -> S -> S -> St; l_accepted : St -> bool; l_xopt : St -> Mx S;
  l_chol : Mx S -> bool; l_solve : Mx S -> Mx S -> Mx S }.
Arguments l_proj {St}. Arguments l_retr {St}. Arguments l_new {St}. Arguments l_run {St}.
Arguments l_accepted {St}. Arguments l_xopt {St}. Arguments l_chol {St}. Arguments l_solve {St}.

Context {St : Type} (L : Lib St).

(** LiftedSEVariable.cpp:59-67 [setData]: the sizes it insists on. *)
Definition fits_var (g : PoseGraph S) (Y : Mx S) : bool :=
  (mrows Y =? pg_r g)%nat && (mcols Y =? (pg_d g + 1) * N.to_nat (pg_n g))%nat.

(** QuadraticProblem.cpp:71-79 [RieGrad], 81-83 [RieGradNorm] *)
Definition qp_riegrad (g : PoseGraph S) (Y : Mx S) : res (PoseGraph S * Mx S) :=
  check (fits_var g Y) (
  do '(g, E) <- qp_grad g Y;
  Ok (g, l_proj L Y E)).
Definition qp_gradnorm (g : PoseGraph S) (Y : Mx S) : res (PoseGraph S * S) :=
  do '(g, G) <- qp_riegrad g Y; Ok (g, mnorm G).

(** QuadraticProblem.cpp:56-69 [PreConditioner]: without a preconditioner the
    vector is only projected. *)
Definition qp_precondition (g : PoseGraph S) (Y V : Mx S) : res (PoseGraph S * Mx S) :=
  do '(g, _) <- hasPreconditioner (l_chol L) g;
  Ok (g, l_proj L Y (match pg_precon g with Some P => l_solve L P V | None => V end)).

(** QuadraticOptimizer.cpp:80-98: the loop of single-step mode.  [runs] lists the
    radii the solver was run with, latest first. *)
Fixpoint tr_loop (fuel : nat) (Y : Mx S) (st : St) (radius : S) (total : Z) (runs : list (S * S)) : res (Mx S * list (S * S)) :=
  match fuel with
  | O => Abort
  | Datatypes.S fuel =>
      let st := l_run L st radius radius in
      let runs := (radius, radius) :: runs in
      if l_accepted L st then Ok (l_xopt L st, runs)
      else if (10 <? total)%Z then Ok (Y, runs)
      else tr_loop fuel Y st (radius / nofZ 4) (total + 1)%Z runs
  end.

(** QuadraticOptimizer.cpp:50-108 [trustRegion]; the loop of line 83 is given
    more turns than it can take (see C43). *)
Definition trustRegion (p : ROptParams) (g : PoseGraph S) (Y : Mx S) : res (PoseGraph S * Mx S * list (S * S)) :=
  do '(g, gn0) <- qp_gradnorm g Y;
  if nltb gn0 (ro_tol p) then Ok (g, Y, []) else
  check (fits_var g Y) (
  let st := l_new L Y in
  if (ro_iters p =? 1)%Z
  then do '(X, runs) <- tr_loop 100 Y st (ro_radius p) 0%Z []; Ok (g, X, rev runs)
  else
    let st := l_run L st (ro_radius p) (nofZ 5 * ro_radius p) in
    Ok (g, l_xopt L st, [(ro_radius p, nofZ 5 * ro_radius p)])).

(** QuadraticOptimizer.cpp:110-137 [gradientDescent] *)
Definition gradientDescent (p : ROptParams) (g : PoseGraph S) (Y : Mx S) : res (PoseGraph S * Mx S) :=
  check (fits_var g Y) (
  do '(g, E) <- qp_grad g Y;
  let G := l_proj L Y E in
  do '(g, G) <- (if ro_usepre p then qp_precondition g Y G else Ok (g, G));
  Ok (g, l_retr L Y (mscal (- ro_step p) G))).

(** QuadraticOptimizer.cpp:26-48 [optimize] *)
Definition optimize (p : ROptParams) (g : PoseGraph S) (Y : Mx S) : res (PoseGraph S * Mx S * ROptResult * list (S * S)) :=
  do '(g, f0) <- qp_f g Y;
  do '(g, gn0) <- qp_gradnorm g Y;
  do '(g, X, runs) <- (if ro_rtr p then trustRegion p g Y else do '(g, X) <- gradientDescent p g Y; Ok (g, X, []));
  do '(g, f1) <- qp_f g X;
  do '(g, gn1) <- qp_gradnorm g X;
  Ok (g, X, mkRR true f0 gn0 f1 gn1, runs).
End Optimizer.
Arguments ROptParams : clear implicits.
Arguments ROptResult : clear implicits.
Arguments Lib : clear implicits.
Arguments mkRO {S}. Arguments ro_rtr {S}. Arguments ro_tol {S}. Arguments ro_step {S}. Arguments ro_usepre {S}. Arguments ro_iters {S}. Arguments ro_radius {S}.
Arguments mkLib {S St}. Arguments l_proj {S St}. Arguments l_retr {S St}. Arguments l_new {S St}. Arguments l_run {S St}.
Arguments l_accepted {S St}. Arguments l_xopt {S St}. Arguments l_chol {S St}. Arguments l_solve {S St}.
