(** Examples for graduated non-convexity over a pose graph (C58). *)
From Coq Require Import List NArith ZArith Bool Arith Lia Reals Lra Psatz.
From Verif Require Import Base SMap Num RSum Det ModelTypes ModelPoseGraph ModelProblem ModelRobust ModelPoses ModelSolver ModelChordal ModelOptimizer ModelInit
  SpecPoseGraph SpecPGHist SpecCost SpecRobust SpecSolver SpecInit SpecRobustPgo ProofsPoseGraph ProofsRobust ProofsSolver ProofsSolverEx ProofsGnc ProofsGnc2
  ProofsInit ProofsInit2 ProofsInit3 ProofsInit4 ProofsInitEx ProofsRobustPgo ProofsRobustPgo2.
Import ListNotations.
Local Open Scope R_scope.

(** Three measurements with squared residuals 88, 36, 10 at the trajectory the solver returns; threshold 6. *)
Definition rp_params : RobustParams R := mkRobustParams GNC_TLS 100 6 (14 / 10) (1 / 10000) 3 10.
Definition flat_solve (ms : list (Meas R)) : res (PoseArr R) := Ok ci_flat.
Lemma flat_res : pgo_res 2 ci_flat ci01 = 88 /\ pgo_res 2 ci_flat ci12 = 36 /\ pgo_res 2 ci_flat ci02 = 10.
Proof.
  unfold pgo_res, edge_cost, sq; cbn. change (Pos.to_nat 1) with 1%nat. change (Pos.to_nat 2) with 2%nat. cbn. repeat split; lra.
Qed.
Lemma rounds_case :
  pose_count [ci01; ci12; ci02] (N.of_nat 3) /\
  (forall m, In m [ci01; ci12; ci02] -> meas_sized 2 m /\ 0 <= mkappa m /\ 0 <= mtau m) /\
  (forall ms', exists T, flat_solve ms' = Ok T /\ traj 2 3 T) /\ div_ok ex_mudiv /\
  exists k ms', (0 < k <= 100)%nat /\ solveRobustPGO ex_mudiv flat_solve [ci01; ci12; ci02] rp_params = Ok (ci_flat, ms') /\
    gnc_rounds flat_solve 2 6 (9 / 35) (14 / 10) [ci01; ci12; ci02] k ms'.
Proof.
  assert (C : pose_count [ci01; ci12; ci02] (N.of_nat 3)) by (apply ci_count; cbn; auto).
  assert (M : forall m, In m [ci01; ci12; ci02] -> meas_sized 2 m /\ 0 <= mkappa m /\ 0 <= mtau m).
  { intros m I. destruct (ci_sizes m I) as (A & B & D). split; auto. lra. }
  assert (V : forall ms', exists T, flat_solve ms' = Ok T /\ traj 2 3 T) by (intros; exists ci_flat; repeat split).
  split; [exact C|]. split; [exact M|]. split; [exact V|]. split; [apply ex_mudiv_ok|].
  destruct (robust_pgo ex_mudiv flat_solve 2 3 [ci01; ci12; ci02] rp_params) as (T0 & T & ms' & E0 & E & ET & _ & H); auto; try (cbn; lra); try reflexivity; try apply ex_mudiv_ok.
  unfold flat_solve in E0, ET. injection E0 as <-. injection ET as <-.
  destruct flat_res as (R1 & R2 & R3).
  destruct (H ci01) as (k & L & G & F).
  - cbn; auto.
  - intros m [<-|[<-|[<-|[]]]]; lra.
  - rewrite R1. cbn. lra.
  - rewrite R1 in G. cbn [GNCBarc GNCMuStep GNCMaxNumIters rp_params] in *. replace (6 * 6 / (2 * 88 - 6 * 6)) with (9 / 35) in G by field.
    exists k, ms'. split; [|split; auto]. destruct F as [F|[F _]]; [|lia].
    split; [|lia]. destruct k; [discriminate|lia].
Qed.

Lemma exact_case : exists B1 B2 B3 T, single_problem 0 2 3 [ci01; ci12; ci02] /\
  constructBMatrices [ci01; ci12; ci02] = Ok (B1, B2, B3) /\
  solves_if_possible fqr (last_cols 8 B3) /\ solves_if_possible fqr (last_cols 4 B1) /\
  descent_solver glib (ro_iters ci_params =? 1)%Z /\ div_ok ex_mudiv /\
  solveRobustPGO ex_mudiv (fun ms => solvePGO fqr csvd det2 glib ms ci_params None) [ci01; ci12; ci02] rp_params = Ok (T, [ci01; ci12; ci02]).
Proof.
  assert (A : single_problem 0 2 3 [ci01; ci12; ci02]) by (apply ci_single; cbn; auto).
  destruct ci_exact_case as (B1 & B2 & B3 & _ & E & Q3 & Q1 & _).
  destruct (robust_exact fqr csvd det2 _ glib ex_mudiv ci_params rp_params 0 2 3 [ci01; ci12; ci02] ciR cit B1 B2 B3) as (T & ET & _); auto using glib_descends, ci_rotation, ci_consistent, csvd_sized, csvd_rot.
  - reflexivity.
  - intros m [<-|[<-|[<-|[]]]]; cbn; repeat split; lra.
  - apply ci_reached; cbn; auto.
  - exact det2_ok.
  - cbn. lra.
  - apply ex_mudiv_ok.
  - exists B1, B2, B3, T. split; auto. split; auto. split; auto. split; auto. split; [apply glib_descends|]. split; [apply ex_mudiv_ok|]. exact ET.
Qed.

(** Twice the largest squared residual equals the squared threshold. *)
Definition im_meas : Meas XR := mkMeas 0 0 0 1 (mident 2) (mzero 2 1) (Fin 1) (Fin 2) false (Fin 1).
Definition im_T : PoseArr XR := mkPA 2 2 2 (mlit 2 6 [[Fin 1; Fin 0; Fin 0; Fin 1; Fin 0; Fin 1]; [Fin 0; Fin 1; Fin 0; Fin 0; Fin 1; Fin 0]]).
Definition im_params : RobustParams XR := mkRobustParams GNC_TLS 100 (Fin 2) (Fin (14 / 10)) (Fin (1 / 10000)) (Fin 3) (Fin 10).

Lemma im_error w : pgo_error im_T (set_mweight w im_meas) = Ok (Fin 2).
Proof. cbn. change (Pos.to_nat 1) with 1%nat. cbn. f_equal. f_equal. lra. Qed.
Lemma im_weight (co : RobustCost XR) r : costType (rc_params co) = GNC_TLS -> rc_mu co = PInf -> GNCBarc (rc_params co) = Fin 2 -> weight co (Fin r) = XNaN.
Proof.
  intros T M B. unfold weight. rewrite T, M, B. cbn. unfold xsign. destruct (Rlt_dec 0 (2 * 2)); [|lra]. cbn.
  destruct (Rlt_dec (r * r) 0); [nra|]. reflexivity.
Qed.
Lemma im_undecided w : existsb pgo_undecided [set_mweight XNaN (set_mweight w im_meas)] = true.
Proof.
  cbn [existsb]. unfold pgo_undecided. cbn [mfixed mweight set_mweight im_meas nltb NumXR xltb negb andb].
  destruct (nsub n1 w_tol); reflexivity.
Qed.
Lemma im_loop fuel : forall (co : RobustCost XR) w, costType (rc_params co) = GNC_TLS -> rc_mu co = PInf -> GNCBarc (rc_params co) = Fin 2 -> GNCMuStep (rc_params co) = Fin (14 / 10) ->
  pgo_loop (fun _ => Ok im_T) (S fuel) [set_mweight w im_meas] co = Ok [set_mweight XNaN im_meas].
Proof.
  induction fuel as [|fuel IH]; intros co w T M B G.
  - cbn [pgo_loop bind mapM]. unfold pgo_reweight. cbn [mfixed set_mweight im_meas]. fold im_meas.
    change (pgo_error im_T _) with (pgo_error im_T (set_mweight w im_meas)). rewrite im_error. cbn [bind]. cbn [nsqrt NumXR xsqrt]. destruct (Rlt_dec 2 0); [lra|]. rewrite im_weight, im_undecided by auto. reflexivity.
  - cbn [pgo_loop bind mapM]. unfold pgo_reweight at 1. cbn [mfixed set_mweight im_meas].
    change (pgo_error im_T _) with (pgo_error im_T (set_mweight w im_meas)). rewrite im_error. cbn [bind]. cbn [nsqrt NumXR xsqrt]. destruct (Rlt_dec 2 0); [lra|]. rewrite im_weight, im_undecided by auto.
    assert (Q : rc_mu (rc_update co) = PInf /\ rc_params (rc_update co) = rc_params co).
    { unfold rc_update. rewrite T. cbn [negb cost_type_eqb]. destruct (N.ltb _ _); cbn [rc_mu rc_params]; split; auto. rewrite M, G. cbn. unfold xsign. destruct (Rlt_dec 0 (14 / 10)); [reflexivity|lra]. }
    destruct Q as [Q1 Q2]. apply (IH (rc_update co) XNaN); rewrite ?Q2; auto.
Qed.
Lemma infinite_mu : exists (solve : list (Meas XR) -> res (PoseArr XR)) ms rp T ms',
  (forall l, solve l = Ok T) /\ costType rp = GNC_TLS /\ GNCBarc rp = Fin 2 /\ (0 < GNCMaxNumIters rp)%N /\
  solveRobustPGO ndiv solve ms rp = Ok (T, ms') /\ ms' <> [] /\
  forall m, In m ms' -> pgo_error T m = Ok (Fin 2) /\ mweight m = XNaN.
Proof.
  exists (fun _ => Ok im_T), [im_meas], im_params, im_T, [set_mweight XNaN im_meas].
  split; auto. split; auto. split; auto. split; [reflexivity|]. split; [|split; [discriminate|]].
  - unfold solveRobustPGO. change (get_dimension_and_num_poses [im_meas]) with (@Ok (nat * N) (2%nat, 2%N)). cbn [bind map mapM].
    rewrite im_error. cbn [bind check cost_type_eqb costType im_params maxCoeff fold_left GNCBarc GNCMaxNumIters GNCMuStep HuberThreshold TLSThreshold].
    cbn [nmul nsub nofZ ndiv n0 nltb NumXR xmul xopp xadd xdiv]. replace (2 * 2 + - (2 * 2)) with 0 by ring. destruct (Req_EM_T 0 0); [|lra].
    unfold xsign. destruct (Rlt_dec 0 (2 * 2)); [|lra]. cbn [xltb]. change (N.to_nat 100) with (S 99).
    rewrite im_loop by reflexivity. reflexivity.
  - intros m [<-|[]]. split; [apply im_error|reflexivity].
Qed.
