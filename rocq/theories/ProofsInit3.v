(** The centralised solver (C54). *)
From Coq Require Import List NArith ZArith Bool Arith Lia Reals Lra Psatz Permutation.
From Verif Require Import Base SMap Num RSum Det MatR ModelTypes ModelPoseGraph ModelPoses ModelProblem ModelSolver ModelChordal ModelOptimizer ModelInit
  SpecPoseGraph SpecPGHist SpecCost SpecSolver SpecInit SpecOptimizer
  ProofsPoseGraph ProofsPGHist ProofsPGMain ProofsCost ProofsCost2 ProofsCost4 ProofsOptimizer ProofsExample2 ProofsPoses ProofsInit ProofsInit2.
Import ListNotations.
Local Open Scope R_scope.
Local Open Scope res_scope.

Lemma run_adds {S} `{Num S} (g : PoseGraph S) L : pg_run g (map PAdd L) = foldM addMeasurement g L.
Proof. revert g. induction L as [|m L IH]; intros g; [reflexivity|]. unfold pg_run in *. cbn [map foldM pg_step]. destruct (addMeasurement g m); cbn [bind]; auto. Qed.

Lemma add_keeps {S} `{Num S} (g g' : PoseGraph S) m : addMeasurement g m = Ok g' -> pg_priors g' = pg_priors g /\ pg_nposes g' = pg_nposes g.
Proof.
  unfold addMeasurement, addOdometry, addPrivateLoopClosure, addSharedLoopClosure. intros E.
  destruct (_ && _) in E; [injection E as <-; auto|]. destruct (_ && _) in E.
  - destruct (_ =? _)%N in E.
    + destruct (hasMeasurement _ _ _) in E; [injection E as <-; auto|]. repeat (apply check_Ok in E; destruct E as [_ E]). injection E as <-. auto.
    + destruct (hasMeasurement _ _ _) in E; [injection E as <-; auto|]. repeat (apply check_Ok in E; destruct E as [_ E]). injection E as <-. auto.
  - destruct (hasMeasurement _ _ _) in E; [injection E as <-; auto|]. apply check_Ok in E. destruct E as [_ E]. apply bind_Ok in E.
    destruct E as (g1 & E1 & E). assert (F : pg_priors g1 = pg_priors g /\ pg_nposes g1 = pg_nposes g).
    { destruct (_ =? _)%N in E1; apply check_Ok in E1; destruct E1 as [_ E1]; injection E1 as <-; auto. }
    injection E as <-. exact F.
Qed.
Lemma adds_keep {S} `{Num S} ms : forall g g' : PoseGraph S, foldM addMeasurement g ms = Ok g' -> pg_priors g' = pg_priors g /\ pg_nposes g' = pg_nposes g.
Proof.
  induction ms as [|m ms IH]; intros g g' E; cbn in E; [injection E as <-; auto|]. apply bind_Ok in E. destruct E as (g1 & E1 & E).
  destruct (add_keeps _ _ _ E1). destruct (IH _ _ E). split; congruence.
Qed.

Lemma filter_split {A} (f h : A -> bool) l : (forall x, In x l -> h x = negb (f x)) -> Permutation (filter f l ++ filter h l) l.
Proof.
  induction l as [|x l IH]; intros F; [constructor|]. cbn [filter]. rewrite (F x (or_introl eq_refl)).
  specialize (IH (fun y Hy => F y (or_intror Hy))). destruct (f x); cbn [negb app]; [constructor; exact IH|].
  apply Permutation_sym, Permutation_cons_app, Permutation_sym, IH.
Qed.

Section Graph.
Context (k : N) (d n : nat) (ms : list (Meas R)) (HP : single_problem k d n ms).

Lemma sp_ids m : In m ms -> ids_ok m.
Proof.
  destruct HP as (_ & [A _] & B & C & D). intros Hm. destruct (A m Hm). destruct (D m Hm) as (E1 & E2 & _).
  unfold ids_ok. rewrite E1, E2. unfold two32 in B. repeat split; lia.
Qed.

Lemma sp_graph_r r : (d <= r)%nat -> exists g0 g, newPoseGraph k r d = Ok g0 /\ setMeasurements g0 ms = Ok g /\ clean k r d [PSetMeas ms] g /\
  Permutation (pg_odom g ++ pg_priv g) (firsts ms) /\ pg_shared g = [] /\ pg_priors g = [] /\ pg_nposes g = [] /\
  pg_n g = N.of_nat n /\ pg_d g = d /\ pg_r g = r.
Proof.
  intros Hr. assert (FI : Forall ids_ok ms) by (apply Forall_forall; exact sp_ids).
  assert (FS : Forall (shape_ok d) ms).
  { apply Forall_forall. intros m Hm. destruct HP as (_ & _ & _ & _ & D). destruct (D m Hm) as (_ & _ & _ & [A B] & [C E]). repeat split; auto. }
  destruct (store_exact k r d ms Hr FI FS) as (g & E & S1 & S2 & S3).
  assert (EK : kept k ms = firsts ms).
  { unfold kept. rewrite filter_yes; auto. intros m Hm. destruct HP as (_ & _ & _ & _ & D). destruct (D m Hm) as (A & _). unfold relevantb. rewrite A, N.eqb_refl. reflexivity. }
  rewrite EK in S1, S2, S3. assert (RO : forall m, In m (firsts ms) -> mr1 m = k /\ mr2 m = k).
  { intros m Hm. apply firsts_in in Hm. destruct HP as (_ & _ & _ & _ & D). destruct (D m Hm) as (A & B & _). auto. }
  apply bind_Ok in E. destruct E as (g0 & E0 & E). exists g0, g.
  assert (ES : setMeasurements g0 ms = Ok g).
  { unfold setMeasurements. rewrite run_adds in E. rewrite <- E. f_equal. unfold newPoseGraph in E0. apply check_Ok in E0. destruct E0 as [_ E0].
    injection E0 as <-. reflexivity. }
  assert (C : clean k r d [PSetMeas ms] g).
  { exists g0. split; [exact E0|]. split; [constructor; [exact FI|constructor]|]. split.
    - cbn [disciplined reads cleans]. split; [discriminate|]. intros; reflexivity.
    - unfold pg_run. cbn [foldM pg_step]. rewrite ES. reflexivity. }
  split; [exact E0|]. split; [exact ES|]. split; [exact C|].
  assert (PP : Permutation (pg_odom g ++ pg_priv g) (firsts ms)).
  { rewrite S1, S2. apply filter_split. intros m Hm. destruct (RO m Hm) as [A B]. unfold is_odom, is_priv. rewrite A, B, N.eqb_refl. reflexivity. }
  assert (SH : pg_shared g = []).
  { rewrite S3. apply filter_no. intros m Hm. destruct (RO m Hm) as [A B]. unfold is_shared. rewrite A, B, N.eqb_refl. reflexivity. }
  split; [exact PP|]. split; [exact SH|].
  rewrite run_adds in E. destruct (adds_keep _ _ _ E) as [K1 K2].
  unfold newPoseGraph in E0. apply check_Ok in E0. destruct E0 as [L0 E0].
  assert (Z : pg_priors g0 = [] /\ pg_nposes g0 = []) by (injection E0 as <-; split; reflexivity). destruct Z as [Z1 Z2].
  split; [congruence|]. split; [congruence|].
  destruct (clean_facts _ _ _ _ _ C) as (W & _ & RH). destruct (reach_dims _ _ _ _ _ RH) as (D1 & D2 & _).
  destruct (reach_facts _ _ _ _ _ RH) as (D3 & _ & _).
  split; [|auto]. pose proof (wf_n _ W) as NS. apply (num_poses_spec_unique (pg_id g) (measurements g)); [exact NS|].
  unfold measurements. rewrite SH, app_nil_r. destruct HP as (_ & [PA (m & Hm & PB)] & PC & _ & PD). split.
  - intros m' p Hm' Hp. apply (Permutation_in _ PP) in Hm'. apply firsts_in in Hm'. destruct (PA m' Hm') as [A B]. unfold own_poses in Hp.
    apply in_app_iff in Hp. destruct Hp as [Hp|Hp]; destruct (_ =? _)%N in Hp; cbn in Hp; intuition; subst; auto.
  - right.
    assert (SE : exists m', In m' (firsts ms) /\ key m' = key m).
    { assert (Q : seen (firsts ms) m = true).
      { rewrite firsts_seen. unfold seen. apply existsb_exists. exists m. split; auto. apply same_key; reflexivity. }
      unfold seen in Q. apply existsb_exists in Q. destruct Q as (m' & I & J). exists m'. split; auto. apply same_key; auto. }
    destruct SE as (m' & I & J). destruct (PD m Hm) as (R1 & R2 & _). injection J as J1 J2 J3 J4.
    exists m'. destruct PB as [PB|PB].
    + exists (mp1 m'). split; [apply (Permutation_in _ (Permutation_sym PP)); exact I|]. split; [|congruence].
      unfold own_poses. apply in_app_iff. left. rewrite J1, R1, D3, N.eqb_refl. left; reflexivity.
    + exists (mp2 m'). split; [apply (Permutation_in _ (Permutation_sym PP)); exact I|]. split; [|congruence].
      unfold own_poses. apply in_app_iff. right. rewrite J2, R2, D3, N.eqb_refl. left; reflexivity.
Qed.
Lemma sp_graph : exists g0 g, newPoseGraph k d d = Ok g0 /\ setMeasurements g0 ms = Ok g /\ clean k d d [PSetMeas ms] g /\
  Permutation (pg_odom g ++ pg_priv g) (firsts ms) /\ pg_shared g = [] /\ pg_priors g = [] /\ pg_nposes g = [] /\
  pg_n g = N.of_nat n /\ pg_d g = d /\ pg_r g = d.
Proof. exact (sp_graph_r d (le_n d)). Qed.
End Graph.

Section Solve.
Context (k : N) (d n : nat) (ms : list (Meas R)) (HP : single_problem k d n ms).

Lemma sp_cost g X g' v : clean k d d [PSetMeas ms] g -> Permutation (pg_odom g ++ pg_priv g) (firsts ms) -> pg_shared g = [] -> pg_priors g = [] -> pg_nposes g = [] ->
  qp_f g X = Ok (g', v) -> v = / 2 * mx_cost d (firsts ms) X - / 2 * mx_cost d (firsts ms) (mzero 0 0).
Proof.
  intros C PP SH PR NP E. destruct (clean_facts _ _ _ _ _ C) as (_ & _ & RH). destruct (reach_dims _ _ _ _ _ RH) as (D1 & D2 & _).
  assert (NO : nposes_ok g) by (intros p Z Hp; rewrite NP in Hp; destruct Hp).
  rewrite (cost_identity _ _ _ _ _ _ _ _ C NO E). unfold local_cost, shared_cost, priors_cost, private_cost. rewrite SH, PR, D1, D2. cbn [nsumL].
  assert (U : forall Y : nat -> nat -> R, nsumL (fun m => edge_cost d d m (pose_blk d Y (N.to_nat (mp1 m))) (pose_blk d Y (N.to_nat (mp2 m)))) (pg_odom g ++ pg_priv g)
    = nsumL (fun m => edge_cost d d m (pose_blk d Y (N.to_nat (mp1 m))) (pose_blk d Y (N.to_nat (mp2 m)))) (firsts ms)) by (intros Y; apply rsumL_perm; exact PP).
  rewrite !U. unfold mx_cost. change (Num.mat (mzero 0 0)) with (fun _ _ : nat => 0). cbn. lra.
Qed.

Lemma sp_needed g : Permutation (pg_odom g ++ pg_priv g) (firsts ms) -> pg_shared g = [] -> pg_n g = N.of_nat n -> needed_known g /\ no_self g /\ last_private g.
Proof.
  intros PP SH NN. destruct HP as (_ & [PA (m & Hm & PB)] & PC & _ & PD). split; [intros m' Hm'; rewrite SH in Hm'; destruct Hm'|]. split.
  - intros m' Hm'. apply (Permutation_in _ PP) in Hm'. apply firsts_in in Hm'. apply (PD m' Hm').
  - assert (Q : seen (firsts ms) m = true).
    { rewrite firsts_seen. unfold seen. apply existsb_exists. exists m. split; auto. apply same_key; reflexivity. }
    unfold seen in Q. apply existsb_exists in Q. destruct Q as (m' & I & J). apply same_key in J. injection J as J1 J2 J3 J4.
    exists m'. split; [apply (Permutation_in _ (Permutation_sym PP)); exact I|]. rewrite NN, J3, J4. exact PB.
Qed.
End Solve.

Lemma gradnorm_defined {St} (L : Lib R St) k d os g X g1 v : clean k d d os g -> qp_f g X = Ok (g1, v) -> pg_d g = d -> pg_r g = d ->
  exists gn, qp_gradnorm L g1 X = Ok (g1, gn).
Proof.
  intros C E D1 D2. assert (SS : same_size X X = true) by (unfold same_size; rewrite !Nat.eqb_refl; reflexivity).
  destruct (derivatives_defined _ _ _ _ _ _ _ _ _ C E SS) as ((g2 & D & ED) & _).
  assert (F : exists gn g0, qp_gradnorm L g X = Ok (g0, gn)).
  { exists (mnorm (l_proj L X D)), g2. unfold qp_gradnorm, qp_riegrad, fits_var. unfold qp_f in E. apply check_Ok in E. destruct E as [A E].
    apply check_Ok in E. destruct E as [B _]. rewrite Nat.add_1_r. rewrite A, B. cbn [andb check]. rewrite ED. reflexivity. }
  destruct F as (gn & g0 & F). exists gn. apply (gradnorm_same L g g1 X (f_data _ _ _ _ E)). eauto.
Qed.

Lemma after_state {St} (L : Lib R St) Y r0 j : solver_state L Y (after L (l_new L Y) r0 j).
Proof. induction j; cbn [after]; constructor; auto. Qed.

(** The iterate returned by the trust-region wrapper. *)
Lemma tr_result {St} (L : Lib R St) p g0 g Y g1 gn : qp_gradnorm L g Y = Ok (g1, gn) ->
  (forall st d1 d2, solver_state L Y st -> ((ro_iters p =? 1)%Z = true -> l_accepted L (l_run L st d1 d2) = true) ->
    let X := l_xopt L (l_run L st d1 d2) in
    sized (mrows Y) (mcols Y) X /\ forall v v', cost_is g0 Y v -> cost_is g0 X v' -> v' <= v) ->
  exists X runs, trustRegion L p g Y = Ok (g1, X, runs) /\ sized (mrows Y) (mcols Y) X /\ forall v v', cost_is g0 Y v -> cost_is g0 X v' -> v' <= v.
Proof.
  intros E HH. assert (RF : sized (mrows Y) (mcols Y) Y /\ forall v v', cost_is g0 Y v -> cost_is g0 Y v' -> v' <= v).
  { split; [split; reflexivity|]. intros v v' [ga A] [gb B]. assert (v' = v) by congruence. lra. }
  destruct (nltb gn (ro_tol p)) eqn:ET.
  - rewrite (tr_converged L p g Y g1 gn E ET). exists Y, []. split; auto.
  - destruct (Z.eqb_spec (ro_iters p) 1) as [I|I].
    + destruct (tr_single L p g Y g1 gn E ET I) as (X & runs & ER & j & [J1 J2] & _ & _ & [[A ->]|(_ & _ & ->)]).
      * exists (l_xopt L (after L (l_new L Y) (ro_radius p) j)), runs. split; [exact ER|].
        destruct j as [|j]; [lia|]. cbn [after] in *. apply HH; [apply after_state|auto].
      * exists Y, runs. split; auto.
    + rewrite (tr_many L p g Y g1 gn E ET I). eexists _, _. split; [reflexivity|]. apply HH; [constructor|discriminate].
Qed.

Theorem solve_not_worse : forall qr svd determinant St (L : PoseGraph R -> Lib R St) p k d n ms T0 Ti,
  single_problem k d n ms -> ro_rtr p = true ->
  T0 = Some Ti \/ T0 = None /\ chordalInitialization qr svd determinant ms = Ok Ti -> traj d n Ti ->
  descent_solver L (ro_iters p =? 1)%Z ->
  exists T, solvePGO qr svd determinant L ms p T0 = Ok T /\ traj d n T /\ mx_cost d (firsts ms) (pa_X T) <= mx_cost d (firsts ms) (pa_X Ti).
Proof.
  intros qr svd dt St L p k d n ms T0 Ti HP HR H0 (TR & TD & TN & TX & TY) HH.
  destruct (sp_graph k d n ms HP) as (g0 & g & E0 & ES & C & PP & SH & PR & NP & GN & GD & GR).
  destruct (sp_needed k d n ms HP g PP SH GN) as (NK & NS & LP).
  pose proof HP as (Hd & PC & Hn & Hk & PD). pose proof (ms_nonempty _ _ PC) as Hne.
  assert (EG : get_dimension_and_num_poses ms = Ok (d, N.of_nat n)).
  { apply dim_and_count; auto. intros m Hm. apply (PD m Hm). }
  assert (SZ : forall X : Mx R, sized d ((d + 1) * n) X -> exists g1 v, qp_f g X = Ok (g1, v)).
  { intros X [A B]. apply (cost_defined k d d [PSetMeas ms] g X); auto. rewrite GN, Nat2N.id, B. rewrite Nat.add_1_r. reflexivity. }
  assert (SI : sized d ((d + 1) * n) (pa_X Ti)) by (split; auto).
  destruct (SZ _ SI) as (g1 & f0 & F0). destruct (gradnorm_defined (L g) k d [PSetMeas ms] g (pa_X Ti) g1 f0 C F0 GD GR) as (gn0 & N0).
  destruct (tr_result (L g) p g g1 (pa_X Ti) g1 gn0 N0 (HH g (pa_X Ti))) as (X & runs & ET & SX & CX). rewrite TX, TY in SX.
  destruct (SZ _ SX) as (g2 & f1 & F1). pose proof (f_data _ _ _ _ F0) as SD.
  assert (F1' : qp_f g1 X = Ok (g1, f1)) by (apply (f_same g g1 X SD); eauto).
  destruct (gradnorm_defined (L g) k d [PSetMeas ms] g X g2 f1 C F1 GD GR) as (gn1 & N1).
  assert (N1' : qp_gradnorm (L g) g1 X = Ok (g1, gn1)).
  { apply (gradnorm_same (L g) g g1 X SD). apply (gradnorm_same (L g) g g2 X (f_data _ _ _ _ F1)) in N1. exact N1. }
  assert (EO : optimize (L g) p g (pa_X Ti) = Ok (g1, X, mkRR true f0 gn0 f1 gn1, runs)).
  { unfold optimize. rewrite F0. cbn [bind]. rewrite N0. cbn [bind]. rewrite HR, ET. cbn [bind]. rewrite F1'. cbn [bind]. rewrite N1'. reflexivity. }
  assert (LE : f1 <= f0) by (apply CX; eexists; eauto).
  rewrite (sp_cost k d ms g _ _ _ C PP SH PR NP F0), (sp_cost k d ms g _ _ _ C PP SH PR NP F1) in LE.
  destruct SX as [X1 X2]. exists (mkPA (pa_r Ti) (pa_d Ti) (pa_n Ti) X). split.
  - unfold solvePGO. rewrite EG. cbn [bind]. destruct ms as [|m0 ms0] eqn:Ems; [congruence|]. rewrite <- Ems in *.
    assert (V : vec_get ms 0 = Ok m0) by (rewrite Ems; reflexivity). rewrite V. cbn [bind].
    assert (I0 : In m0 ms) by (rewrite Ems; left; reflexivity). destruct (PD m0 I0) as (R0 & _).
    assert (EI : match T0 with Some T => Ok T | None => chordalInitialization qr svd dt ms end = Ok Ti) by (destruct H0 as [-> |[-> H0]]; auto).
    rewrite EI. cbn [bind]. rewrite TD, TN, Nat.eqb_refl, N.eqb_refl. cbn [check]. rewrite R0.
    replace (u32 k) with k by (unfold u32; rewrite N.mod_small; [reflexivity|unfold two32; lia]).
    rewrite E0. cbn [bind]. rewrite ES. cbn [bind]. rewrite EO. cbn [bind]. rewrite <- TD, <- TN. apply pa_setData_spec; congruence.
  - split; [|cbn [pa_X]; lra]. repeat split; cbn; auto.
Qed.
