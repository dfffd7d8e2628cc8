(** Averaging, projections and initialisation of single-robot problems.
    Source: src/DPGO_solver.cpp, src/DPGO_utils.cpp,
    src/manifold/LiftedSEManifold.cpp.
    External: Eigen's singular value decomposition and determinant. *)
From Coq Require Import List NArith ZArith Bool Arith.
From Verif Require Import Base Num ModelTypes ModelRobust ModelPoses ModelProblem ModelPoseGraph.
Import ListNotations.
Local Open Scope res_scope.

Section Solver.
Context {S : Type} `{Num S}.
Local Open Scope num_scope.

(** DPGO_utils.cpp:259-270 [get_dimension_and_num_poses]; [size_t] additions wrap. *)
Definition get_dimension_and_num_poses (ms : list (Meas S)) : res (nat * N) :=
  match ms with
  | [] => Abort
  | m0 :: _ =>
      let d := mrows (mt m0) in
      check ((d =? 2)%nat || (d =? 3)%nat)
        (Ok (d, fold_left (fun n m => N.max (N.max n (u64 (mp1 m + 1))) (u64 (mp2 m + 1))) ms 0%N))
  end.

(** DPGO_solver.cpp:271-303 [odometryInitialization] *)
Definition odom_step (odometry : list (Meas S)) (T : PoseArr S) (dst : nat) : res (PoseArr S) :=
  let src := (dst - 1)%nat in
  do m <- vec_get odometry src;
  check (mp1 m =? N.of_nat src)%N (check (mp2 m =? N.of_nat dst)%N (
  do Rsrc <- pa_rot T src;
  do tsrc <- pa_trans T src;
  require (can_mul Rsrc (mR m) && can_mul Rsrc (mt m) && same_size tsrc (mmul Rsrc (mt m))) (
  do T <- pa_set_rot T dst (mmul Rsrc (mR m));
  pa_set_trans T dst (madd tsrc (mmul Rsrc (mt m)))))).

Definition odometryInitialization (odometry : list (Meas S)) (partial : option (PoseArr S)) : res (PoseArr S) :=
  do '(dimension, num_poses) <- get_dimension_and_num_poses odometry;
  let n := N.to_nat num_poses in
  do T <- pa_new dimension dimension n;
  do '(T, next) <-
    match partial with
    | Some P =>
        if (0 <? pa_n P)%nat then
          check (pa_d P =? dimension)%nat (
          let k := Nat.min (pa_n P) n in
          do T <- foldM (fun T i => do X <- pa_pose P i; pa_set_pose T i X) T (seq 0 k);
          Ok (T, k))
        else
          do I <- pose_identity dimension; do T <- pa_set_pose T 0 (pa_X I); Ok (T, 1%nat)
    | None => do I <- pose_identity dimension; do T <- pa_set_pose T 0 (pa_X I); Ok (T, 1%nat)
    end;
  foldM (odom_step odometry) T (seq next (n - next)).

(** Eigen's [JacobiSVD] (matrixU, matrixV), full and thin, and [determinant]. *)
Context (svd_full svd_thin : Mx S -> Mx S * Mx S) (determinant : Mx S -> S).

(** DPGO_utils.cpp:464-478 [projectToRotationGroup] *)
Definition projectToRotationGroup (M : Mx S) : Mx S :=
  let '(U, V) := svd_full M in
  if nltb n0 (determinant U * determinant V) then mmul U (mtr V)
  else
    let U' := mkMx (mrows U) (mcols U)
                (fun i j => if Nat.eqb j (mcols U - 1) then U i j * (- n1) else U i j) in
    mmul U' (mtr V).

(** DPGO_utils.cpp:480-486 [projectToStiefelManifold] *)
Definition projectToStiefelManifold (M : Mx S) : res (Mx S) :=
  check (mcols M <=? mrows M)%nat (
    let '(U, V) := svd_thin M in Ok (mmul U (mtr V))).

(** LiftedSEManifold.cpp:34-45 [LiftedSEManifold::project]; the OpenMP loop
    writes disjoint blocks. *)
Definition manifold_project (r d n : nat) (M : Mx S) : res (Mx S) :=
  check (mrows M =? r)%nat (check (mcols M =? (d + 1) * n)%nat (
    foldM (fun X i =>
      do Y <- projectToStiefelManifold (mblock X 0 (i * (d + 1)) r d);
      require (has_size Y r d) (Ok (msetblock X 0 (i * (d + 1)) Y))) M (seq 0 n))).

(** Weight vectors ([Vector]) are lists. *)
Definition ones (n : nat) : list S := repeat n1 n.
Definition cwise (a b : list S) : list S := map (fun p => fst p * snd p) (combine a b).
Definition or_default (n : nat) (v dflt : list S) : list S := if Nat.eqb (length v) n then v else dflt.

(** DPGO_solver.cpp:23-40 [singleTranslationAveraging] *)
Definition singleTranslationAveraging (tVec : list (Mx S)) (tau : list S) : res (Mx S) :=
  match tVec with
  | [] => Abort
  | t0 :: _ =>
      let d := mrows t0 in
      let tau_ := or_default (length tVec) tau (ones (length tVec)) in
      require (forallb (fun t => has_size t d 1) tVec) (
        let s := fold_left (fun s p => madd s (mscal (fst p) (snd p))) (combine tau_ tVec) (mzero d 1) in
        let w := fold_left (fun w x => w + x) tau_ n0 in
        Ok (mkMx d 1 (fun i j => s i j / w)))
  end.

(** DPGO_solver.cpp:42-57 [singleRotationAveraging] *)
Definition singleRotationAveraging (RVec : list (Mx S)) (kappa : list S) : res (Mx S) :=
  match RVec with
  | [] => Abort
  | R0 :: _ =>
      let d := mrows R0 in
      let kappa_ := or_default (length RVec) kappa (ones (length RVec)) in
      require (forallb (fun R => has_size R d d) RVec)
        (Ok (projectToRotationGroup
              (fold_left (fun M p => madd M (mscal (fst p) (snd p))) (combine kappa_ RVec) (mzero d d))))
  end.

(** DPGO_solver.cpp:59-70 [singlePoseAveraging] *)
Definition singlePoseAveraging (RVec tVec : list (Mx S)) (kappa tau : list S) : res (Mx S * Mx S) :=
  match RVec, tVec with
  | R0 :: _, t0 :: _ =>
      check (Nat.eqb (length RVec) (length tVec)) (check (Nat.eqb (mrows R0) (mrows t0)) (
        do t <- singleTranslationAveraging tVec tau;
        do R <- singleRotationAveraging RVec kappa;
        Ok (R, t)))
  | _, _ => Abort
  end.

(** DPGO_utils.cpp:518-528 [checkRotationMatrix]: only the size is enforced,
    otherwise it just logs a warning. *)
Definition checkRotationMatrix (R : Mx S) : res unit := check (Nat.eqb (mcols R) (mrows R)) (Ok tt).

(** [Vector::maxCoeff] of a nonempty vector (undefined when empty). *)
Definition maxCoeff (v : list S) : S :=
  match v with [] => n0 | x :: l => fold_left (fun m y => if nltb m y then y else m) l x end.

Definition w_tol : S := nlit 1 100000000.

(** Undecided measurements keep the loop running (lines 116-124, 193-205). *)
Definition converged_weight (w : S) : bool := nltb w w_tol || nltb (n1 - w_tol) w.

(** The division in [muInit = barcSq / (2 * max - barcSq)] (lines 98, 174, 357).
    With a zero divisor it yields an infinity or NaN; then [mudiv] stands for a
    number that leads to the same branch and the same [muInit] (any value of at
    least 1e-5 for +inf, any value of at most 0 for NaN). [solveRobustPGO] has no
    upper limit, there +inf is not covered. *)
Context (mudiv : S -> S -> S).

(** The loop of DPGO_solver.cpp:108-125 and 182-206.  [average] solves for the
    estimate with given weights, [residuals] gives the squared residuals.
    The last component lists the weights handed to [average] (ghost). *)
Section Gnc.
Context {E : Type} (average : list S -> res E) (residuals : E -> res (list S)).

Fixpoint gnc_loop (fuel : nat) (est : E) (ws : list S) (cost : RobustCost S) : res (E * list S * list (list S)) :=
  match fuel with
  | O => Ok (est, ws, [])
  | Datatypes.S fuel' =>
      do est' <- average ws;
      do rs <- residuals est';
      let ws' := map (fun rSq => weight cost (nsqrt rSq)) rs in
      if forallb converged_weight ws' then Ok (est', ws', [ws])
      else do '(e, w, calls) <- gnc_loop fuel' est' ws' (rc_update cost); Ok (e, w, ws :: calls)
  end.

(** DPGO_solver.cpp:89-134 and 160-217: plain average, choice of the initial
    mu, loop, inliers. *)
Definition gnc_average (n : nat) (errorThreshold : S) (maxIters : N)
  : res (E * list nat * list (list S)) :=
  let ws := ones n in
  do est <- average ws;
  do rSqVec <- residuals est;
  let barcSq := errorThreshold * errorThreshold in
  let muInit := mudiv barcSq (nofZ 2 * maxCoeff rSqVec - barcSq) in
  let muInit := nmin muInit (nlit 1 100000) in
  do '(est, ws, calls) <-
    (if nltb n0 muInit then
       let p := default_robust GNC_TLS in
       let p := mkRobustParams GNC_TLS maxIters errorThreshold (GNCMuStep p) muInit (HuberThreshold p) (TLSThreshold p) in
       gnc_loop (N.to_nat maxIters) est ws (rc_new p)
     else Ok (est, ws, []));
  Ok (est, filter (fun i => nltb (n1 - w_tol) (nth i ws n0)) (seq 0 n), ones n :: calls).
End Gnc.

(** Squared residuals, lines 90-93, 114 and 166-169, 195. *)
Definition rot_residuals (kappa : list S) (RVec : list (Mx S)) (R : Mx S) : res (list S) :=
  require (forallb (fun Ri => same_size R Ri) RVec)
    (Ok (map (fun p => fst p * mfro2 (msub R (snd p))) (combine kappa RVec))).
Definition pose_residuals (kappa tau : list S) (RVec tVec : list (Mx S)) (e : Mx S * Mx S) : res (list S) :=
  require (forallb (fun Ri => same_size (fst e) Ri) RVec && forallb (fun ti => same_size (snd e) ti) tVec)
    (Ok (map (fun p => fst (fst p) * mfro2 (msub (fst e) (snd (fst p))) + fst (snd p) * mfro2 (msub (snd e) (snd (snd p))))
             (combine (combine kappa RVec) (combine tau tVec)))).

(** DPGO_solver.cpp:72-135 [robustSingleRotationAveraging].
    The first average is called with [kappa_] itself (line 89), which is
    kappa_ .* ones. *)
Definition robustRotation_calls (RVec : list (Mx S)) (kappa : list S) (errorThreshold : S)
  : res (Mx S * list nat * list (list S)) :=
  let n := length RVec in
  check (0 <? n)%nat (
    let kappa_ := or_default n kappa (ones n) in
    do _ <- foldM (fun _ R => checkRotationMatrix R) tt RVec;
    gnc_average (fun ws => singleRotationAveraging RVec (cwise kappa_ ws))
                (rot_residuals kappa_ RVec) n errorThreshold 1000).
Definition robustSingleRotationAveraging RVec kappa errorThreshold : res (Mx S * list nat) :=
  do '(R, inliers, _) <- robustRotation_calls RVec kappa errorThreshold; Ok (R, inliers).

(** DPGO_solver.cpp:137-218 [robustSinglePoseAveraging] *)
Definition robustPose_calls (RVec tVec : list (Mx S)) (kappa tau : list S) (errorThreshold : S)
  : res (Mx S * Mx S * list nat * list (list S)) :=
  let n := length RVec in
  check (0 <? n)%nat (check (Nat.eqb (length tVec) n) (
    let kappa_ := or_default n kappa (repeat (nofZ 10000 * n1) n) in
    let tau_ := or_default n tau (repeat (nofZ 100 * n1) n) in
    do _ <- foldM (fun _ R => checkRotationMatrix R) tt RVec;
    gnc_average (fun ws => singlePoseAveraging RVec tVec (cwise kappa_ ws) (cwise tau_ ws))
                (pose_residuals kappa_ tau_ RVec tVec) n errorThreshold 10000)).
Definition robustSinglePoseAveraging RVec tVec kappa tau errorThreshold : res (Mx S * Mx S * list nat) :=
  do '(R, t, inliers, _) <- robustPose_calls RVec tVec kappa tau errorThreshold; Ok (R, t, inliers).

(** DPGO_solver.cpp:335-412 [solveRobustPGO]. [solve] is [solvePGO] with the
    fixed optimisation parameters and initial guess T0 (lines 305-333); it sees
    the measurements with their current weights. *)
Context (solve : list (Meas S) -> res (PoseArr S)).

Definition pgo_error (T : PoseArr S) (m : Meas S) : res S :=
  do R1 <- pa_rot T (N.to_nat (u32 (mp1 m))); do t1 <- pa_trans T (N.to_nat (u32 (mp1 m)));
  do R2 <- pa_rot T (N.to_nat (u32 (mp2 m))); do t2 <- pa_trans T (N.to_nat (u32 (mp2 m)));
  computeMeasurementError m R1 t1 R2 t2.

(** Lines 345-353 and 373-384: a loop over the measurements. *)
Fixpoint mapM {A B} (f : A -> res B) (l : list A) : res (list B) :=
  match l with
  | [] => Ok []
  | x :: l' => do y <- f x; do ys <- mapM f l'; Ok (y :: ys)
  end.

Definition pgo_reweight (T : PoseArr S) (cost : RobustCost S) (m : Meas S) : res (Meas S) :=
  if mfixed m then Ok m
  else do rSq <- pgo_error T m; Ok (set_mweight (weight cost (nsqrt rSq)) m).

Definition pgo_undecided (m : Meas S) : bool :=
  negb (mfixed m) && negb (nltb (mweight m) w_tol) && negb (nltb (n1 - w_tol) (mweight m)).

Fixpoint pgo_loop (fuel : nat) (ms : list (Meas S)) (cost : RobustCost S) : res (list (Meas S)) :=
  match fuel with
  | O => Ok ms
  | Datatypes.S fuel' =>
      do T <- solve ms;
      do ms' <- mapM (pgo_reweight T cost) ms;
      if existsb pgo_undecided ms' then pgo_loop fuel' ms' (rc_update cost) else Ok ms'
  end.

Definition solveRobustPGO (ms : list (Meas S)) (rp : RobustParams S) : res (PoseArr S * list (Meas S)) :=
  do _ <- get_dimension_and_num_poses ms;
  do T <- solve ms;
  let ms1 := map (set_mweight n1) ms in
  do rSqVec <- mapM (pgo_error T) ms1;
  check (cost_type_eqb (costType rp) GNC_TLS) (
    let barcSq := GNCBarc rp * GNCBarc rp in
    let muInit := mudiv barcSq (nofZ 2 * maxCoeff rSqVec - barcSq) in
    let p := mkRobustParams GNC_TLS (GNCMaxNumIters rp) (GNCBarc rp) (GNCMuStep rp) muInit (HuberThreshold rp) (TLSThreshold rp) in
    do ms2 <- (if nltb n0 muInit then pgo_loop (N.to_nat (GNCMaxNumIters rp)) ms1 (rc_new p) else Ok ms1);
    do T <- solve ms2;
    Ok (T, ms2)).

End Solver.
