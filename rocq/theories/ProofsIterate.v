(** What one call of iterate() computes. *)
From Coq Require Import List NArith ZArith Bool Arith Lia.
From Verif Require Import Base SMap Num ModelTypes ModelPoseGraph ModelProblem ModelRobust ModelPoses ModelSolver ModelAgent
  SpecPoseGraph SpecPGHist SpecSolver SpecAgent ProofsPoseGraph ProofsPGHist ProofsPGMain ProofsPGData ProofsPoses ProofsAgent ProofsAgent2 ProofsAgent3
  ProofsAgent5.
Import ListNotations.
Local Open Scope res_scope.

Section A.
Context {S : Type} `{HS : Num S}.
Implicit Types (a : Agent S) (g : PoseGraph S) (T X : PoseArr S) (x : Ext S).

(** Two agents that pose the same problem to the optimiser. *)
Definition same_problem a1 a2 : Prop :=
  measurements (a_pg a2) = measurements (a_pg a1) /\ pg_priors (a_pg a2) = pg_priors (a_pg a1) /\
  pg_active (a_pg a2) = pg_active (a_pg a1) /\ pg_useinact (a_pg a2) = pg_useinact (a_pg a1) /\
  pg_n (a_pg a2) = pg_n (a_pg a1) /\ pg_id (a_pg a2) = pg_id (a_pg a1) /\ pg_shared (a_pg a2) = pg_shared (a_pg a1) /\
  pg_nbrs (a_pg a2) = pg_nbrs (a_pg a1).

Lemma same_problem_refl a : same_problem a a.
Proof. unfold same_problem. auto 10. Qed.
Lemma same_problem_trans a b c : same_problem a b -> same_problem b c -> same_problem a c.
Proof. unfold same_problem. intuition congruence. Qed.
Lemma optimised_same opt a1 a2 cache s r : same_problem a1 a2 -> optimised opt a2 cache s r -> optimised opt a1 cache s r.
Proof.
  intros (Q1 & Q2 & Q3 & Q4 & Q5 & Q6 & _) (g & pre & E & R). exists g, pre. split; auto.
  rewrite <- Q1, <- Q2, <- Q3, <- Q4, <- Q5, <- Q6. exact R.
Qed.

Lemma updateX_moves opt a b acc a' s : AInv a -> is_init a = true -> ag_updateX opt a b acc = Ok (a', s) ->
  same_problem a a' /\
  xstep opt a (if acc then a_naux a else a_ndict a) b s (a_X a) (if acc then a_Y a else a_X a) (a_X a') /\
  (b = true -> (s = false <-> missing_pose a (if acc then a_naux a else a_ndict a))) /\
  a_ndict a' = a_ndict a /\ a_naux a' = a_naux a /\ a_id a' = a_id a.
Proof.
  intros I Hi E. assert (QT := fun Hb : b = true => updateX_true opt a acc a' s I (eq_ind b (fun q => ag_updateX opt a q acc = Ok (a', s)) E true Hb)).
  unfold ag_updateX in E. destruct b; cbn [negb] in E; unfold xstep.
  - specialize (QT eq_refl). destruct QT as [QT QT2].
    destruct s.
    + apply check_Ok in E. destruct E as [_ E]. apply check_Ok in E. destruct E as [_ E].
      apply bind_Ok in E. destruct E as [[g b] [E0 E]]. cbn zeta in E.
      pose proof (constructData_core _ _ _ E0) as C2.
      pose proof (set_nbr_wf a acc I) as W.
      destruct (construct_spec _ _ _ W E0) as (_ & _ & B3 & _).
      destruct b; cbn [negb] in E; [|discriminate]. destruct (B3 eq_refl) as [B3a B3b].
      apply check_Ok in E. destruct E as [_ E]. apply check_Ok in E. destruct E as [_ E].
      destruct (opt g _) as [o m] eqn:EO. apply bind_Ok in E. destruct E as [y [E3 E]]. injection E as <-.
      unfold core_eq in C2. cbn [setNeighborPoses set_pg_G set_pg_nposes pg_id pg_odom pg_priv pg_shared pg_active pg_n pg_d pg_r pg_nposes pg_nbrs pg_priors pg_useinact] in C2.
      destruct C2 as (P1 & P2 & P3 & P4 & P5 & P6 & P7 & P8 & P9 & P10 & P11 & P12 & _).
      split; [unfold same_problem, measurements; cbn; rewrite P1, P2, P3, P4, P5, P6, P10, P11, P12; auto 10|].
      split; [|split; [intros _; exact QT|auto]].
      exists g, o. unfold measurements. rewrite P1, P2, P3, P4, P5, P6, P11, P12.
      unfold pa_setData in E3. dres E3. injection E3 as <-. cbn.
      split; [|auto 10]. destruct acc; assumption.
    + rewrite (QT2 eq_refl). split; [unfold same_problem, measurements; cbn; auto 10|]. split; [reflexivity|]. split; [intros _; exact QT|auto].
  - injection E as <- <-. destruct acc; cbn; (split; [unfold same_problem, measurements; cbn; auto 10|]); (split; [auto|]); split; auto; discriminate.
Qed.

Lemma xstep_same opt a1 a2 cache b s stay start X' : same_problem a1 a2 ->
  xstep opt a2 cache b s stay start X' -> xstep opt a1 cache b s stay start X'.
Proof. intros Q. unfold xstep. destruct b, s; auto. apply optimised_same; auto. Qed.

Lemma missing_same a1 a2 cache : same_problem a1 a2 -> a_id a2 = a_id a1 -> missing_pose a2 cache -> missing_pose a1 cache.
Proof.
  intros (Q1 & Q2 & Q3 & Q4 & Q5 & Q6 & Q7 & Q8) Qi (m & M1 & M2 & M3). exists m. rewrite <- Qi, <- Q7. split; auto. split; auto.
  revert M2. unfold isNeighborActive, hasNeighbor. rewrite Q3, Q8. auto.
Qed.

Lemma updateY_exact x a a' : AInv a -> ag_updateY x a = Ok a' ->
  exists Y, a' = sa_Y a Y /\ arr (p_r (a_params a)) (p_d (a_params a)) (num_poses a) Y /\
    projected x a (fun i j => nadd (nmul (nsub n1 (a_alpha a)) (pa_X (a_X a) i j)) (nmul (a_alpha a) (pa_X (a_V a) i j))) Y.
Proof.
  intros I E. destruct (updateY_form _ _ _ E I) as (Y & -> & HY & Ha & Hs).
  exists Y. split; auto. split; auto.
  unfold ag_updateY in E. dres E. injection E as E'.
  destruct (iv_acc _ I Ha Hs) as (HY0 & _ & _). destruct (iv_X _ I ltac:(congruence)) as [_ HX].
  destruct (pa_setData_arr _ _ _ _ _ _ HY0 E1) as [_ EX]. 
  rewrite E' in EX.
  eexists. split; [|split; [|split; [|rewrite EX; rewrite <- (iv_r _ I), <- (iv_d _ I); exact E0]]].
  - cbn. apply HX.
  - cbn. apply HX.
  - intros i j. reflexivity.
Qed.

Lemma updateV_exact x a a' : AInv a -> ag_updateV x a = Ok a' ->
  exists V, a' = sa_V a V /\ arr (p_r (a_params a)) (p_d (a_params a)) (num_poses a) V /\
    projected x a (fun i j => nadd (pa_X (a_V a) i j) (nmul (a_gamma a) (nsub (pa_X (a_X a) i j) (pa_X (a_Y a) i j)))) V.
Proof.
  intros I E. destruct (updateV_form _ _ _ E I) as (V & -> & HV & Ha & Hs).
  exists V. split; auto. split; auto.
  unfold ag_updateV in E. dres E. injection E as E'.
  destruct (iv_acc _ I Ha Hs) as (_ & HV0 & _).
  destruct (pa_setData_arr _ _ _ _ _ _ HV0 E1) as [_ EX]. 
  rewrite E' in EX.
  eexists. split; [|split; [|split; [|rewrite EX; rewrite <- (iv_r _ I), <- (iv_d _ I); exact E0]]].
  - cbn. apply HV0.
  - cbn. apply HV0.
  - intros i j. reflexivity.
Qed.

(** The plain iteration. *)
Lemma iterate_plain x opt a b a' s : AInv a -> p_accel (a_params a) = false -> a_state a = INITIALIZED ->
  ag_iterate x opt a b = Ok (a', s) ->
  a_XPrev a' = a_X a /\ xstep opt a (a_ndict a) b s (a_X a) (a_X a) (a_X a') /\
  (b = true -> (s = false <-> missing_pose a (a_ndict a))).
Proof.
  intros I Ha Hs E. pose proof (iterate_split _ _ _ _ _ _ E) as Q. cbn zeta in Q.
  assert (Hi : is_init a = true) by (apply is_init_eq; auto). rewrite Hi, Ha in Q.
  destruct Q as (a2 & a3 & Q1 & Q2 & Q3).
  set (a0 := sa_XPrev _ (a_X a)) in Q1.
  assert (I0 : AInv a0) by exact (proj1 (iter_base_inv a I Hi _ _ n0 n0 (a_X a))).
  assert (S0 : same_problem a a0) by (unfold same_problem; auto 10).
  destruct (updateX_moves _ _ _ _ _ _ I0 Hi Q1) as (M1 & M2 & M3 & _).
  destruct (updateX_keeps _ _ _ _ _ _ Q1) as (_ & _ & _ & _ & K5 & _).
  destruct (restart_end _ _ _ _ _ Q2 Q3) as (_ & _ & R3 & _).
  assert (XP : a_XPrev a' = a_XPrev a2).
  { rewrite Q3. assert (F3 : a_XPrev a3 = a_XPrev a2).
    { destruct b; [|subst a3; auto]. destruct (updateStatus_exact _ _ _ Q2) as (ch & st & _ & _ & ->). reflexivity. }
    destruct (b || p_accel (a_params a3)); cbn; auto. }
  split; [rewrite XP, K5; reflexivity|]. split.
  - rewrite R3. eapply xstep_same; [exact S0|]. exact M2.
  - intros Hb. specialize (M3 Hb). split.
    + intros Hf. apply M3 in Hf. eapply missing_same; [exact S0|reflexivity|exact Hf].
    + intros Hm. apply M3. revert Hm. apply missing_same; [unfold same_problem; auto 10|reflexivity].
Qed.

(** The accelerated iteration: Y, X and V, then possibly a restart from the old X. *)
Lemma iterate_accel x opt a b a' s : AInv a -> p_accel (a_params a) = true -> a_state a = INITIALIZED ->
  ag_iterate x opt a b = Ok (a', s) ->
  let gm := next_gamma (p_numRobots (a_params a)) (a_gamma a) in
  let al := next_alpha (p_numRobots (a_params a)) gm in
  a_XPrev a' = a_X a /\ (b = true -> (s = false <-> missing_pose a (a_naux a))) /\
  exists Y X V,
    projected x a (fun i j => nadd (nmul (nsub n1 al) (pa_X (a_X a) i j)) (nmul al (pa_X (a_V a) i j))) Y /\
    xstep opt a (a_naux a) b s (a_X a) Y X /\
    projected x a (fun i j => nadd (pa_X (a_V a) i j) (nmul gm (nsub (pa_X X i j) (pa_X Y i j)))) V /\
    if (u32 (a_iter a' + 1) mod p_restart (a_params a) =? 0)%N
    then exists s', xstep opt a (a_ndict a) b s' (a_X a) (a_X a) (a_X a') /\ (b = true -> (s' = false <-> missing_pose a (a_ndict a)))
    else a_Y a' = Y /\ a_X a' = X /\ a_V a' = V.
Proof.
  intros I Ha Hs E gm al. pose proof (iterate_split _ _ _ _ _ _ E) as Q. cbn zeta in Q.
  assert (Hi : is_init a = true) by (apply is_init_eq; auto). rewrite Hi, Ha in Q.
  destruct Q as (a2 & a3 & (aY & aX & aV & again & QY & QX & QV & QR & Q1) & Q2 & Q3).
  destruct (iterate_restart _ _ _ _ _ _ Ha Hs E) as (_ & _ & Hit).
  set (i := u32 (a_iter a + 1)) in *. set (j := if robust a then _ else _) in *.
  fold gm in QY. fold al in QY.
  set (a0 := sa_alpha (sa_gamma (sa_XPrev (sa_inner (sa_iter a i) j) (a_X a)) gm) al) in *.
  assert (I0 : AInv a0).
  { destruct (iv_acc _ I Ha Hs) as (HY & _ & _). destruct (iter_base_inv a I Hi i j gm al (a_Y a)) as [_ B]. specialize (B HY).
    unfold a0. revert B. destruct a; cbn. auto. }
  destruct (updateY_exact _ _ _ I0 QY) as (Y & EY & HY & PY).
  assert (IY : AInv aY).
  { rewrite EY. destruct (iter_base_inv a I Hi i j gm al Y) as [_ B]. apply B. exact HY. }
  assert (SY : same_problem a aY) by (rewrite EY; unfold same_problem; auto 10).
  assert (HiY : is_init aY = true) by (rewrite EY; exact Hi).
  destruct (updateX_moves _ _ _ _ _ _ IY HiY QX) as (M1 & M2 & M3 & M4 & M5 & M6).
  destruct (updateX_keeps _ _ _ _ _ _ QX) as (K1 & K2 & K3 & K4 & K5 & K6 & K7 & K8).
  assert (IX : AInv aX).
  { eapply updateX_inv; eauto; [intros _; rewrite EY; exact Ha|rewrite EY; exact Hs]. }
  destruct (updateV_exact _ _ _ IX QV) as (V & EV & HV & PV).
  assert (EP : a_params aX = a_params a) by (rewrite K7, EY; reflexivity).
  assert (EN : num_poses aX = num_poses a).
  { unfold num_poses. destruct M1 as (_ & _ & _ & _ & M1 & _). rewrite M1, EY. reflexivity. }
  assert (EVp : a_params aV = a_params a) by (rewrite EV; exact EP).
  assert (EVi : a_iter aV = i) by (rewrite EV; cbn; rewrite K6, EY; reflexivity).
  assert (ER : again = (u32 (a_iter a' + 1) mod p_restart (a_params a) =? 0)%N).
  { unfold ag_shouldRestart in QR. rewrite EVp, Ha, EVi in QR. apply require_Ok in QR. destruct QR as [_ QR]. injection QR as <-.
    rewrite Hit. reflexivity. }
  rewrite <- ER.
  destruct (restart_end _ _ _ _ _ Q2 Q3) as (_ & R2 & R3 & R4 & _).
  assert (XP : a_XPrev a' = a_XPrev a2).
  { rewrite Q3. assert (F3 : a_XPrev a3 = a_XPrev a2).
    { destruct b; [|subst a3; auto]. destruct (updateStatus_exact _ _ _ Q2) as (ch & st & _ & _ & ->). reflexivity. }
    destruct (b || p_accel (a_params a3)); cbn; auto. }
  assert (XV : a_XPrev aV = a_X a) by (rewrite EV; cbn; rewrite K5, EY; reflexivity).
  assert (X2 : a_XPrev a2 = a_X a).
  { destruct again; [|injection Q1 as <-; auto]. unfold ag_restart in Q1. dres Q1. destruct (p_accel (a_params aV) && is_init aV).
    - apply bind_Ok in Q1. destruct Q1 as [[aR sR] [QR1 Q1]]. injection Q1 as <-. cbn.
      destruct (updateX_keeps _ _ _ _ _ _ QR1) as (_ & _ & _ & _ & K5' & _). cbn in K5'. congruence.
    - injection Q1 as <-. auto. }
  split; [congruence|].
  split.
  { intros Hb. specialize (M3 Hb). cbn in M3. assert (Q : a_naux aY = a_naux a) by (rewrite EY; reflexivity). rewrite Q in M3. split.
    - intros Hf. apply M3 in Hf. eapply missing_same; [exact SY|rewrite EY; reflexivity|exact Hf].
    - intros Hm. apply M3. revert Hm. apply missing_same; [rewrite EY; unfold same_problem; auto 10|rewrite EY; reflexivity]. }
  exists Y, (a_X aX), V. split; [exact PY|]. split.
  { apply (xstep_same opt a aY); [exact SY|]. cbn in M2. rewrite EY in M2 at 2 3 4. cbn in M2. exact M2. }
  split.
  { destruct PV as (M & V1 & V2 & V3 & V4). exists M. rewrite EP, EN in *.
    split; auto. split; auto. split; auto. intros k l. rewrite V3, K4, K1, K3, EY. reflexivity. }
  destruct again; [|injection Q1 as <-].
  - unfold ag_restart in Q1.
    assert (Hc : p_accel (a_params aV) && is_init aV = true).
    { rewrite EVp, Ha. cbn. apply is_init_eq. rewrite EV. cbn. rewrite K8, EY. exact Hs. }
    rewrite Hc in Q1. apply bind_Ok in Q1. destruct Q1 as [[aR sR] [QR1 Q1]].
    assert (SV : same_problem a (sa_X aV (a_XPrev aV))).
    { eapply same_problem_trans; [exact SY|]. eapply same_problem_trans; [exact M1|]. rewrite EV. unfold same_problem; auto 10. }
    assert (IVV : AInv (sa_X aV (a_XPrev aV))).
    { rewrite XV. assert (HX := proj2 (iv_X _ I ltac:(congruence))). rewrite EV.
      pose proof (iv_acc _ IX) as QA. destruct IX. constructor; auto.
      - intros Hz. split; [apply iv_X; auto|]. cbn. unfold num_poses in *. cbn. rewrite EN, EP. exact HX.
      - intros H1 H2. destruct (QA H1 H2) as (G1 & G2 & G3). auto. }
    destruct (updateX_moves _ _ _ _ _ _ IVV (proj2 (andb_prop _ _ Hc)) QR1) as (N1 & N2 & N3 & N4 & N5 & N6).
    assert (D : a_ndict (sa_X aV (a_XPrev aV)) = a_ndict a) by (rewrite EV; cbn; rewrite M4, EY; reflexivity).
    assert (DI : a_id (sa_X aV (a_XPrev aV)) = a_id a) by (rewrite EV; cbn; rewrite M6, EY; reflexivity).
    exists sR. split.
    + eapply xstep_same; [exact SV|]. rewrite R3. injection Q1 as <-. cbn. cbn in N2, D. rewrite D, XV in N2. exact N2.
    + intros Hb. specialize (N3 Hb). cbn in N3, D. rewrite D in N3. split.
      * intros Hf. apply N3 in Hf. eapply missing_same; [exact SV|exact DI|exact Hf].
      * intros Hm. apply N3. revert Hm. apply missing_same; [|symmetry; exact DI]. revert SV. unfold same_problem. intuition congruence.
  - rewrite R2, R3, R4, EV. cbn. rewrite K3, EY. auto.
Qed.

Lemma c57_plain x id p os a opt b a' s : areach x id p os a -> p_accel p = false -> a_state a = INITIALIZED ->
  ag_iterate x opt a b = Ok (a', s) ->
  a_XPrev a' = a_X a /\ (b = true -> (s = false <-> missing_pose a (a_ndict a))) /\
  xstep opt a (a_ndict a) b s (a_X a) (a_X a) (a_X a').
Proof.
  intros R Ha Hs E. destruct (hist_all _ _ _ _ _ R) as (_ & Hp & _). subst p.
  destruct (iterate_plain _ _ _ _ _ _ (areach_inv _ _ _ _ _ R) Ha Hs E) as (Q1 & Q2 & Q3). auto.
Qed.

Lemma c57_accel x id p os a opt b a' s : areach x id p os a -> p_accel p = true -> a_state a = INITIALIZED ->
  ag_iterate x opt a b = Ok (a', s) ->
  let gm := next_gamma (p_numRobots p) (a_gamma a) in
  let al := next_alpha (p_numRobots p) gm in
  a_XPrev a' = a_X a /\ (b = true -> (s = false <-> missing_pose a (a_naux a))) /\
  exists Y X V,
    projected x a (fun i j => nadd (nmul (nsub n1 al) (pa_X (a_X a) i j)) (nmul al (pa_X (a_V a) i j))) Y /\
    xstep opt a (a_naux a) b s (a_X a) Y X /\
    projected x a (fun i j => nadd (pa_X (a_V a) i j) (nmul gm (nsub (pa_X X i j) (pa_X Y i j)))) V /\
    if (u32 (a_iter a' + 1) mod p_restart p =? 0)%N
    then exists s', xstep opt a (a_ndict a) b s' (a_X a) (a_X a) (a_X a') /\ (b = true -> (s' = false <-> missing_pose a (a_ndict a)))
    else a_Y a' = Y /\ a_X a' = X /\ a_V a' = V.
Proof.
  intros R Ha Hs E. destruct (hist_all _ _ _ _ _ R) as (_ & Hp & _). subst p.
  apply (iterate_accel _ _ _ _ _ _ (areach_inv _ _ _ _ _ R) Ha Hs E).
Qed.
End A.
