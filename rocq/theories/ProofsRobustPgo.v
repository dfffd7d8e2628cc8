(** Graduated non-convexity over a pose graph (C58). *)
From Coq Require Import List NArith ZArith Bool Arith Lia Reals Lra Psatz.
From Verif Require Import Base SMap Num RSum Det ModelTypes ModelPoseGraph ModelProblem ModelRobust ModelPoses ModelSolver
  SpecPoseGraph SpecCost SpecRobust SpecSolver SpecInit SpecRobustPgo SpecFrames MatR ProofsPoseGraph ProofsCost4 ProofsRobust ProofsSolver ProofsGnc ProofsGnc2 ProofsPoses ProofsOdom ProofsFrames
  ProofsFrames2 ProofsResidual ProofsInit.
Import ListNotations.
Local Open Scope R_scope.
Local Open Scope res_scope.

Lemma tls_gw mu c e : 0 <= e -> gw mu c (sqrt e) = tls_weight mu c e.
Proof. intros He. unfold gw, gup, glow, gmid, tls_weight. rewrite sqrt_sqrt by auto. reflexivity. Qed.

Lemma sbw_refl ms : same_but_weights ms ms.
Proof. induction ms; constructor; auto. exists (mweight a). destruct a; reflexivity. Qed.
Lemma sbw_map ms ms1 (f : Meas R -> Meas R) : (forall m, exists w, f m = set_mweight w m) -> same_but_weights ms ms1 -> same_but_weights ms (map f ms1).
Proof.
  intros Hf. induction 1 as [|m m1 l l1 [w ->] F IH]; constructor; auto. destruct (Hf (set_mweight w m)) as [w' ->]. exists w'. reflexivity.
Qed.
Lemma reweighted_sbw d mu c T m : exists w, reweighted d mu c T m = set_mweight w m.
Proof. unfold reweighted. destruct (mfixed m); eauto. exists (mweight m). destruct m; reflexivity. Qed.
Lemma rounds_sbw solve d c mu0 step ms k ms' : gnc_rounds solve d c mu0 step ms k ms' -> same_but_weights ms ms'.
Proof.
  induction 1.
  - apply sbw_map; [eauto|apply sbw_refl].
  - apply sbw_map; auto. apply reweighted_sbw.
Qed.

Section P.
Context (d n : nat) (ms0 : list (Meas R)).
Hypothesis Hcount : pose_count ms0 (N.of_nat n).
Hypothesis Hn : (N.of_nat n < two32)%N.
Hypothesis Hm : forall m, In m ms0 -> meas_sized d m /\ 0 <= mkappa m /\ 0 <= mtau m.
Context (solve : list (Meas R) -> res (PoseArr R)).
Hypothesis Hsolve : forall ms, same_but_weights ms0 ms -> exists T, solve ms = Ok T /\ traj d n T.

Definition fine (m : Meas R) : Prop :=
  (mp1 m < N.of_nat n)%N /\ (mp2 m < N.of_nat n)%N /\ meas_sized d m /\ 0 <= mkappa m /\ 0 <= mtau m.
Lemma fine_sbw ms : same_but_weights ms0 ms -> Forall fine ms.
Proof.
  assert (F0 : Forall fine ms0).
  { apply Forall_forall. intros m I. destruct (proj1 Hcount m I). destruct (Hm m I) as (A & B & C). unfold fine; auto. }
  revert F0. clear. intros F H. induction H as [|m m' l l' [w ->] H IH]; constructor; inversion F; subst; auto.
Qed.

Lemma res_nonneg T m : fine m -> 0 <= pgo_res d T m.
Proof.
  intros (_ & _ & _ & K & T'). unfold pgo_res, edge_cost. cbn [set_mweight mweight mkappa mtau mR mt].
  rewrite Rmult_1_l. apply Rplus_le_le_0_compat; apply Rmult_le_pos; auto; repeat (apply rsum_nonneg; intros); unfold sq; apply Rle_0_sqr.
Qed.

Lemma pgo_error_is T m : traj d n T -> fine m -> pgo_error T m = Ok (pgo_res d T m).
Proof.
  intros TT (I1 & I2 & [S1 S2] & _). unfold pgo_error.
  assert (AX : SpecAgent.arr d d n T) by (destruct TT as (A & B & C & D & E); unfold SpecAgent.arr; auto).
  assert (OP : forall q, (q < N.of_nat n)%N -> exists Ri ti, pa_rot T (N.to_nat (u32 q)) = Ok Ri /\ pa_trans T (N.to_nat (u32 q)) = Ok ti /\
     sized d d Ri /\ sized d 1 ti /\ (forall k j, (k < d)%nat -> (j < d)%nat -> Ri k j = pblk T (N.to_nat q) k j) /\
     (forall k, (k < d)%nat -> ti k 0%nat = pblk T (N.to_nat q) k d)).
  { intros q L. destruct (arr_parts d d n _ (N.to_nat q) AX ltac:(lia)) as (Ri & ti & ER & Et & SR & St & VR & Vt).
    exists Ri, ti. rewrite u32_small by (pose proof Hn as Hn2; revert Hn2; unfold two32; lia). auto 10. }
  destruct (OP _ I1) as (R1 & t1 & Q1 & Q2 & Q3 & Q4 & Q5 & Q6). destruct (OP _ I2) as (R2 & t2 & Q1' & Q2' & Q3' & Q4' & Q5' & Q6').
  rewrite Q1. cbn [bind]. rewrite Q2. cbn [bind]. rewrite Q1'. cbn [bind]. rewrite Q2'. cbn [bind].
  apply error_is; auto.
Qed.

Lemma mapM_all {A B} (f : A -> res B) (g : A -> B) l : Forall (fun x => f x = Ok (g x)) l -> mapM f l = Ok (map g l).
Proof. induction 1 as [|x l E F IH]; [reflexivity|]. cbn. rewrite E. cbn. rewrite IH. reflexivity. Qed.

Lemma reweight_is T cost m c mu : traj d n T -> fine m -> costType (rc_params cost) = GNC_TLS -> GNCBarc (rc_params cost) = c -> rc_mu cost = mu ->
  pgo_reweight T cost m = Ok (reweighted d mu c T m).
Proof.
  intros TT F E1 E2 E3. unfold pgo_reweight, reweighted. destruct (mfixed m); auto.
  rewrite (pgo_error_is T m TT F). cbn [bind]. rewrite weight_gnc_R, E2, E3 by auto. numr. rewrite tls_gw by (apply res_nonneg; auto). reflexivity.
Qed.

Lemma undecided_iff ms : existsb pgo_undecided ms = false <-> Forall decided ms.
Proof.
  assert (Q : forall m, pgo_undecided m = false <-> decided m).
  { intros m. unfold pgo_undecided, decided. rewrite w_tol_R. numr. destruct (mfixed m); cbn [negb andb]; [split; auto|].
    destruct (Rlt_dec _ _); destruct (Rlt_dec _ _); cbn [negb andb]; split; auto; try (intros _; lra); try discriminate.
    intros [G|[G|G]]; try discriminate; lra. }
  rewrite Forall_forall. split.
  - intros E m I. apply Q. destruct (pgo_undecided m) eqn:U; auto. assert (existsb pgo_undecided ms = true) by (apply existsb_exists; eauto). congruence.
  - intros F. destruct (existsb pgo_undecided ms) eqn:E; auto. apply existsb_exists in E. destruct E as (m & I & U). apply F, Q in I. congruence.
Qed.

Context (p : RobustParams R).
Hypothesis Hp : costType p = GNC_TLS.
Hypothesis Hmax : (GNCMaxNumIters p < two64)%N.

Lemma loop_rounds fuel : forall k ms, (N.of_nat (k + fuel) = GNCMaxNumIters p)%N ->
  gnc_rounds solve d (GNCBarc p) (GNCInitMu p) (GNCMuStep p) ms0 k ms -> (k <> 0%nat -> ~ Forall decided ms) ->
  exists j ms', pgo_loop solve fuel ms (rc_updates k (rc_new p)) = Ok ms' /\ (k <= j <= k + fuel)%nat /\
    gnc_rounds solve d (GNCBarc p) (GNCInitMu p) (GNCMuStep p) ms0 j ms' /\ (j = (k + fuel)%nat \/ (k < j)%nat /\ Forall decided ms').
Proof.
  induction fuel as [|fuel IH]; intros k ms Hk Rk Uk.
  - exists k, ms. split; [reflexivity|]. split; [lia|]. split; [exact Rk|]. left; lia.
  - cbn [pgo_loop]. pose proof (rounds_sbw _ _ _ _ _ _ _ _ Rk) as SB. destruct (Hsolve ms SB) as (T & ET & TT). rewrite ET. cbn [bind].
    destruct (schedule p k Hp ltac:(lia)) as (C1 & C2 & C3). rewrite Nat.min_l in C1 by lia.
    rewrite (mapM_all _ (reweighted d (GNCInitMu p * GNCMuStep p ^ k) (GNCBarc p) T)).
    2:{ eapply Forall_impl; [|apply fine_sbw; exact SB]. intros m F. apply reweight_is; auto; rewrite C3; auto. }
    cbn [bind]. set (ms1 := map _ ms).
    assert (R1 : gnc_rounds solve d (GNCBarc p) (GNCInitMu p) (GNCMuStep p) ms0 (S k) ms1) by (econstructor; eauto).
    destruct (existsb pgo_undecided ms1) eqn:EU.
    + destruct (IH (S k) ms1 ltac:(lia) R1) as (j & ms' & EL & B & RJ & Fin).
      { intros _ F. apply undecided_iff in F. congruence. }
      exists j, ms'. cbn [rc_updates] in EL. split; [exact EL|]. split; [lia|]. split; [exact RJ|]. destruct Fin as [->|[A B']]; [left; lia|right; split; [lia|auto]].
    + exists (S k), ms1. split; auto. split; [lia|]. split; auto. right. split; [lia|]. apply undecided_iff; auto.
Qed.
End P.

Theorem robust_pgo : forall mudiv solve d n ms rp,
  (d = 2 \/ d = 3)%nat -> pose_count ms (N.of_nat n) -> (N.of_nat n < two32)%N ->
  (forall m, In m ms -> meas_sized d m /\ 0 <= mkappa m /\ 0 <= mtau m) ->
  (forall ms', same_but_weights ms ms' -> exists T, solve ms' = Ok T /\ traj d n T) ->
  costType rp = GNC_TLS -> 0 < GNCBarc rp -> (GNCMaxNumIters rp < two64)%N -> div_ok mudiv ->
  let c := GNCBarc rp in
  exists T0 T ms', solve ms = Ok T0 /\ solveRobustPGO mudiv solve ms rp = Ok (T, ms') /\ solve ms' = Ok T /\
    ((forall m, In m ms -> 2 * pgo_res d T0 m < c * c) -> ms' = map (set_mweight 1) ms) /\
    (forall m, In m ms -> (forall m', In m' ms -> pgo_res d T0 m' <= pgo_res d T0 m) -> c * c < 2 * pgo_res d T0 m ->
       exists k, (N.of_nat k <= GNCMaxNumIters rp)%N /\
         gnc_rounds solve d c (c * c / (2 * pgo_res d T0 m - c * c)) (GNCMuStep rp) ms k ms' /\
         (N.of_nat k = GNCMaxNumIters rp \/ (0 < k)%nat /\ Forall decided ms')).
Proof.
  intros mudiv solve d n ms rp Hd Hc Hn Hm Hs Ht Hb Hx Hdiv c.
  destruct (Hs ms (sbw_refl ms)) as (T0 & E0 & TT0). exists T0.
  assert (SB1 : same_but_weights ms (map (set_mweight 1) ms)) by (apply sbw_map; [eauto|apply sbw_refl]).
  assert (NE : ms <> []) by (destruct Hc as [_ (m & I & _)]; intros ->; destruct I).
  unfold solveRobustPGO.
  assert (EG : get_dimension_and_num_poses ms = Ok (d, N.of_nat n)).
  { apply dim_and_count; auto. intros m I. apply (Hm m I). }
  rewrite EG. cbn [bind]. rewrite E0. cbn [bind]. change (@n1 R NumR) with 1.
  rewrite (mapM_all _ (pgo_res d T0)).
  2:{ eapply Forall_impl; [|apply (fine_sbw d n ms Hc Hm _ SB1)]. intros m F. apply (pgo_error_is d n Hn); auto. }
  cbn [bind]. rewrite Ht. cbn [cost_type_eqb check].
  assert (EM : map (pgo_res d T0) (map (set_mweight 1) ms) = map (pgo_res d T0) ms).
  { rewrite map_map. apply map_ext. intros m. reflexivity. }
  rewrite EM. set (rs := map (pgo_res d T0) ms). assert (NR : rs <> []) by (unfold rs; destruct ms; [congruence|discriminate]).
  set (mx := maxCoeff rs). fold c.
  assert (Hmx : forall m, In m ms -> pgo_res d T0 m <= mx).
  { intros m I. apply maxCoeff_ub. apply in_map; auto. }
  assert (Imx : exists m, In m ms /\ pgo_res d T0 m = mx).
  { assert (Im := maxCoeff_in rs NR). unfold rs in Im. apply in_map_iff in Im. destruct Im as (m & E & I). exists m. auto. }
  cbv zeta. numr. change (IZR 2) with 2. set (mu0 := mudiv (c * c) (2 * mx - c * c)).
  set (p := mkRobustParams GNC_TLS (GNCMaxNumIters rp) c (GNCMuStep rp) mu0 (HuberThreshold rp) (TLSThreshold rp)).
  destruct (Rlt_dec 0 mu0) as [L|L].
  - destruct (loop_rounds d n ms Hc Hn Hm solve Hs p eq_refl Hx (N.to_nat (GNCMaxNumIters rp)) 0 (map (set_mweight 1) ms)) as (j & ms' & EL & B & RJ & Fin).
    + cbn. lia.
    + constructor.
    + congruence.
    + change (rc_updates 0 (rc_new p)) with (rc_new p) in EL. rewrite EL. cbn [bind].
      destruct (Hs ms' (rounds_sbw _ _ _ _ _ _ _ _ RJ)) as (T & ET & _). rewrite ET. cbn [bind].
      exists T, ms'. split; auto. split; auto. split; auto. split.
      * intros Hall. exfalso. destruct Imx as (m & I & E). specialize (Hall m I). rewrite E in Hall.
        unfold mu0 in L. rewrite Hdiv in L by lra. assert (/ (2 * mx - c * c) < 0) by (apply Rinv_lt_0_compat; lra). unfold Rdiv in L. assert (0 < c * c) by nra. nra.
      * intros m I Hmax Hbig. assert (E : pgo_res d T0 m = mx).
        { apply Rle_antisym; [auto|]. destruct Imx as (m' & I' & E'). rewrite <- E'. auto. }
        exists j. split; [lia|]. split; [|destruct Fin as [->|[A F]]; [left; lia|right; split; [lia|auto]]].
        unfold mu0 in RJ, p. cbn [p GNCBarc GNCInitMu GNCMuStep] in RJ. rewrite Hdiv in RJ by lra. rewrite E. exact RJ.
  - cbn [bind]. destruct (Hs _ SB1) as (T & ET & _). rewrite ET. cbn [bind].
    exists T, (map (set_mweight 1) ms). split; auto. split; auto. split; auto. split; auto.
    intros m I Hmax Hbig. exfalso. apply L. unfold mu0. specialize (Hmx m I). rewrite Hdiv by lra.
    apply Rdiv_lt_0_compat; [unfold c; nra|lra].
Qed.

(** What a finished run says about the measurements, at the last trajectory of the loop. *)
Theorem robust_judged : forall solve d c mu0 step ms k ms',
  (forall m, In m ms -> 0 <= mkappa m /\ 0 <= mtau m) -> 0 < c -> 0 < mu0 -> 1 <= step ->
  gnc_rounds solve d c mu0 step ms (S k) ms' ->
  exists ms1 T, gnc_rounds solve d c mu0 step ms k ms1 /\ solve ms1 = Ok T /\
    forall m, In m ms' -> (mfixed m = true -> mweight m = 1) /\ (mfixed m = false ->
      0 <= mweight m <= 1 /\ mweight m = tls_weight (mu0 * step ^ k) c (pgo_res d T m) /\
      (1 - 1 / 100000000 < mweight m -> pgo_res d T m < c * c) /\
      (2 / 10000000000000000 <= mu0 -> mweight m < 1 / 100000000 -> c * c <= pgo_res d T m)).
Proof.
  intros solve d c mu0 step ms k ms' Hm Hc Hmu Hst HR.
  assert (FX : forall j l, gnc_rounds solve d c mu0 step ms j l -> forall m, In m l -> (mfixed m = true -> mweight m = 1) /\ 0 <= mkappa m /\ 0 <= mtau m).
  { induction 1 as [|j l1 T H IH U E]; intros m I.
    - apply in_map_iff in I. destruct I as (m0 & <- & I). cbn. split; auto.
    - apply in_map_iff in I. destruct I as (m0 & <- & I). specialize (IH m0 I). unfold reweighted. destruct (mfixed m0) eqn:F; [rewrite <- F in *; exact IH|].
      cbn [set_mweight mfixed mkappa mtau mweight]. split; [intros; congruence|]. apply IH. }
  pose proof (FX _ _ HR) as FXS. inversion HR as [|j ms1 T Hj U E Ej Em]; subst. exists ms1, T. split; auto. split; auto.
  intros m I. split; [apply FXS; auto|]. intros F. destruct (FXS m I) as (_ & K & Ta).
  apply in_map_iff in I. destruct I as (m0 & Em & I). unfold reweighted in Em. destruct (mfixed m0) eqn:F0; [congruence|].
  assert (R0 : pgo_res d T m = pgo_res d T m0) by (rewrite <- Em; reflexivity).
  assert (P0 : 0 <= pgo_res d T m).
  { unfold pgo_res, edge_cost. cbn [set_mweight mweight mkappa mtau mR mt].
    rewrite Rmult_1_l. apply Rplus_le_le_0_compat; apply Rmult_le_pos; auto; repeat (apply rsum_nonneg; intros); apply Rle_0_sqr. }
  assert (W : mweight m = tls_weight (mu0 * step ^ k) c (pgo_res d T m)) by (rewrite R0, <- Em; reflexivity).
  assert (ST : 1 <= step ^ k) by (apply pow_R1_Rle; auto).
  assert (M : mu0 <= mu0 * step ^ k) by nra.
  rewrite <- tls_gw in W by auto. rewrite W.
  split; [apply gw_unit; [lra|apply sqrt_pos]|]. split; [apply tls_gw; auto|]. split.
  - intros A. rewrite <- (sqrt_sqrt _ P0). apply (gw_inlier (mu0 * step ^ k)); try lra; [apply sqrt_pos|]. rewrite w_tol_R. lra.
  - intros B A. rewrite <- (sqrt_sqrt _ P0). apply (gw_outlier (mu0 * step ^ k)); try lra; [apply sqrt_pos|]. rewrite w_tol_R. lra.
Qed.
