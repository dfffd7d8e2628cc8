(** The optimiser wrapper (C43). *)
From Coq Require Import List NArith ZArith Bool QArith Reals.
From Verif Require Import Base Num ModelTypes ModelPoseGraph ModelProblem ModelOptimizer SpecOptimizer ProofsOptimizer ProofsAgentEx ProofsOptimizerEx.
Import ListNotations.

(** Single-step mode: at most twelve runs, radii r, r/4, r/16, ..., the first
    accepted point or the start. *)
Theorem C43_single {S} `{Num S} {St} (L : Lib S St) : forall p g Y g1 gn,
  qp_gradnorm L g Y = Ok (g1, gn) -> nltb gn (ro_tol p) = false -> ro_iters p = 1%Z ->
  exists X runs, trustRegion L p g Y = Ok (g1, X, runs) /\ single_step L Y (ro_radius p) X runs.
Proof. exact (tr_single L). Qed.
Print Assumptions C43_single.

Theorem C43_radius : forall (r0 : R) k, radius_at r0 k = (r0 / 4 ^ k)%R.
Proof. exact radius_R. Qed.
Print Assumptions C43_radius.

Theorem C43_converged {S} `{Num S} {St} (L : Lib S St) : forall p g Y g1 gn,
  qp_gradnorm L g Y = Ok (g1, gn) -> nltb gn (ro_tol p) = true -> trustRegion L p g Y = Ok (g1, Y, []).
Proof. exact (tr_converged L). Qed.
Print Assumptions C43_converged.

(** Any other iteration count: a single run that may enlarge the radius fivefold. *)
Theorem C43_many {S} `{Num S} {St} (L : Lib S St) : forall p g Y g1 gn,
  qp_gradnorm L g Y = Ok (g1, gn) -> nltb gn (ro_tol p) = false -> ro_iters p <> 1%Z ->
  trustRegion L p g Y = Ok (g1, l_xopt L (l_run L (l_new L Y) (ro_radius p) (nofZ 5 * ro_radius p)%num),
                            [(ro_radius p, (nofZ 5 * ro_radius p)%num)]).
Proof. exact (tr_many L). Qed.
Print Assumptions C43_many.

(** The recorded costs and gradient norms are those of the start and of the
    result, and the measurements are untouched. *)
Theorem C43_optimize {S} `{Num S} {St} (L : Lib S St) : forall p g Y g' X rr runs,
  optimize L p g Y = Ok (g', X, rr, runs) ->
  rr_success rr = true /\ cost_is g Y (rr_fInit rr) /\ gradnorm_is L g Y (rr_gnInit rr) /\
  cost_is g X (rr_fOpt rr) /\ gradnorm_is L g X (rr_gnOpt rr) /\
  pg_r g' = pg_r g /\ pg_d g' = pg_d g /\ pg_n g' = pg_n g /\ measurements g' = measurements g /\
  exists g1, same_data g g1 /\
    if ro_rtr p then trustRegion L p g1 Y = Ok (g1, X, runs) else runs = [] /\ exists g2, gradientDescent L p g1 Y = Ok (g2, X).
Proof. exact (optimize_spec L). Qed.
Print Assumptions C43_optimize.

(** A solver that accepts only points at or below the start's cost never raises
    it; the last hypothesis says the start's cost is not NaN. *)
Theorem C43_descends {S} `{Num S} {St} (L : Lib S St) : forall p g Y g' X rr runs,
  optimize L p g Y = Ok (g', X, rr, runs) -> ro_rtr p = true -> descends L g Y (ro_iters p =? 1)%Z ->
  nleb (rr_fInit rr) (rr_fInit rr) = true -> nleb (rr_fOpt rr) (rr_fInit rr) = true.
Proof. exact (optimize_descends L). Qed.
Print Assumptions C43_descends.

Example C43_example : exists g, qg_r = Ok g /\
  qg_opt 2 (qpar true 1 0) 1 (fun runs f0 f1 X => runs = [(8, 8); (2, 2); (1 # 2, 1 # 2)]%Q /\ f0 = 2%Q /\ f1 = 0%Q /\ X = dump (qpair 3)) g /\
  qg_opt 20 (qpar true 1 0) 1 (fun runs f0 f1 X => length runs = 12%nat /\ f0 = 2%Q /\ f1 = 2%Q /\ X = dump (qpair 1)) g /\
  qg_opt 0 (qpar true 5 0) 1 (fun runs f0 f1 X => runs = [(8, 40)]%Q /\ f0 = 2%Q /\ f1 = 0%Q /\ X = dump (qpair 3)) g /\
  qg_opt 0 (qpar true 1 0) 3 (fun runs f0 f1 X => runs = [] /\ f0 = 0%Q /\ f1 = 0%Q /\ X = dump (qpair 3)) g /\
  descends (qlib 2) g (qpair 1) true.
Proof. exact ex_single. Qed.

(** Gradient descent: one retraction along the negative, possibly
    preconditioned, projected gradient; nothing bounds the cost. *)
Theorem C43_gradient {S} `{Num S} {St} (L : Lib S St) : forall p g Y g' X, gradientDescent L p g Y = Ok (g', X) ->
  exists g1 D, qp_grad g Y = Ok (g1, D) /\
    (ro_usepre p = false -> X = l_retr L Y (mscal (- ro_step p)%num (l_proj L Y D))) /\
    (ro_usepre p = true -> exists V, X = l_retr L Y (mscal (- ro_step p)%num (l_proj L Y V)) /\
       (V = l_proj L Y D \/ exists P, pg_precon g' = Some P /\ V = l_solve L P (l_proj L Y D))).
Proof. exact (gd_spec L). Qed.
Print Assumptions C43_gradient.

Theorem C43_gradient_refuted : exists (St : Type) (L : Lib Q St) p g Y g' X r runs, optimize L p g Y = Ok (g', X, r, runs) /\
  ro_rtr p = false /\ (rr_fInit r < rr_fOpt r)%Q.
Proof. exact gd_raises. Qed.
Print Assumptions C43_gradient_refuted.
