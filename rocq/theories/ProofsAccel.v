(** The momentum parameters gamma and alpha. *)
From Coq Require Import List NArith ZArith Bool Lia Reals Lra.
From Verif Require Import Base SMap Num ModelTypes ModelPoseGraph ModelProblem ModelRobust ModelPoses ModelSolver ModelAgent SpecCost SpecFrames
  SpecPoseGraph SpecAgent ProofsPoseGraph ProofsPGHist ProofsAgent ProofsAgent2 ProofsAgent3 ProofsAgent4 ProofsAgent5 ProofsAgent6.
Import ListNotations.
Local Open Scope res_scope.

Section G.
Local Open Scope R_scope.
Variable N : N.
Hypothesis HN : (1 <= N < 2147483648)%N.
Local Notation n := (IZR (Z.of_N N)).

Lemma n_ge1 : 1 <= n.
Proof. apply IZR_le. lia. Qed.
Lemma u32_2n : IZR (Z.of_N (u32 (2 * N))) = 2 * n.
Proof.
  unfold u32, two32. rewrite N.mod_small by lia. rewrite N2Z.inj_mul, mult_IZR. reflexivity.
Qed.
Lemma gamma_R (g : R) : next_gamma N g = (1 + sqrt (1 + 4 * (n * n) * (g * g))) / (2 * n).
Proof.
  transitivity ((1 + sqrt (1 + 4 * (n * n) * (g * g))) / IZR (Z.of_N (u32 (2 * N)))); [reflexivity|]. rewrite u32_2n. reflexivity.
Qed.

Lemma rad_pos (g : R) : 0 <= 1 + 4 * (n * n) * (g * g).
Proof. assert (0 <= (n * n) * (g * g)) by (pose proof (Rle_0_sqr n); pose proof (Rle_0_sqr g); unfold Rsqr in *; apply Rmult_le_pos; auto). lra. Qed.
Lemma sqrt_ge1 (g : R) : 1 <= sqrt (1 + 4 * (n * n) * (g * g)).
Proof.
  rewrite <- sqrt_1 at 1. apply sqrt_le_1_alt.
  assert (0 <= (n * n) * (g * g)) by (pose proof (Rle_0_sqr n); pose proof (Rle_0_sqr g); unfold Rsqr in *; apply Rmult_le_pos; auto). lra.
Qed.
Lemma sqrt_ge2 (g : R) : 0 <= g -> 2 * n * g <= sqrt (1 + 4 * (n * n) * (g * g)).
Proof.
  intros Hg. pose proof n_ge1. rewrite <- (sqrt_Rsqr (2 * n * g)) by (apply Rmult_le_pos; lra).
  apply sqrt_le_1_alt. unfold Rsqr. replace (2 * n * g * (2 * n * g)) with (4 * (n * n) * (g * g)) by ring. lra.
Qed.

Lemma gamma_eq (g : R) : let g' := next_gamma N g in n * (g' * g') - g' = n * (g * g).
Proof.
  cbv zeta. rewrite gamma_R. pose proof n_ge1. set (s := sqrt (1 + 4 * (n * n) * (g * g))).
  assert (Hs : s * s = 1 + 4 * (n * n) * (g * g)) by (apply sqrt_sqrt, rad_pos).
  replace (n * ((1 + s) / (2 * n) * ((1 + s) / (2 * n))) - (1 + s) / (2 * n)) with ((s * s - 1) / (4 * n)) by (field; lra).
  rewrite Hs. field. lra.
Qed.
Lemma gamma_grows (g : R) : 0 <= g -> g + / (2 * n) <= next_gamma N g.
Proof.
  intros Hg. rewrite gamma_R. pose proof n_ge1. pose proof (sqrt_ge2 g Hg).
  apply Rmult_le_reg_r with (2 * n); [lra|]. unfold Rdiv. rewrite Rmult_assoc, Rinv_l by lra.
  rewrite Rmult_plus_distr_r, Rinv_l by lra. lra.
Qed.
Lemma gamma_pos (g : R) : / n <= next_gamma N g.
Proof.
  rewrite gamma_R. pose proof n_ge1. pose proof (sqrt_ge1 g). apply Rmult_le_reg_r with (2 * n); [lra|].
  unfold Rdiv. rewrite Rmult_assoc, Rinv_l by lra. replace (/ n * (2 * n)) with 2 by (field; lra). lra.
Qed.
Lemma inv_n_pos : 0 < / n. Proof. pose proof n_ge1. apply Rinv_0_lt_compat. lra. Qed.
Lemma alpha_range (g : R) : 0 < next_alpha N (next_gamma N g) <= 1.
Proof.
  unfold next_alpha. cbn -[next_gamma]. pose proof (gamma_pos g). pose proof n_ge1. pose proof inv_n_pos. set (g' := next_gamma N g) in *.
  assert (1 <= g' * n). { apply Rmult_le_compat_r with (r := n) in H; [|lra]. rewrite Rinv_l in H by lra. lra. }
  split; [unfold Rdiv; rewrite Rmult_1_l; apply Rinv_0_lt_compat; lra|].
  apply Rmult_le_reg_r with (g' * n); [lra|]. unfold Rdiv. rewrite Rmult_assoc, Rinv_l by lra. lra.
Qed.
Lemma gamma_first : next_gamma N 0 = / n /\ next_alpha N (next_gamma N 0) = 1.
Proof.
  pose proof n_ge1. assert (E : next_gamma N 0 = / n).
  { rewrite gamma_R. replace (1 + 4 * (n * n) * (0 * 0)) with 1 by ring. rewrite sqrt_1. field. lra. }
  split; auto. rewrite E. unfold next_alpha. cbn. field. lra.
Qed.

(** gamma after k accelerated steps from 0. *)
Fixpoint gam (k : nat) : R := match k with O => 0 | Datatypes.S k' => next_gamma N (gam k') end.
Lemma gam_ge k : INR k / (2 * n) <= gam k.
Proof.
  pose proof n_ge1. induction k as [|k IH]; [cbn; unfold Rdiv; rewrite Rmult_0_l; lra|].
  assert (0 <= gam k). { eapply Rle_trans; [|apply IH]. apply Rmult_le_pos; [apply pos_INR|]. left. apply Rinv_0_lt_compat. lra. }
  pose proof (gamma_grows _ H0). cbn [gam]. rewrite S_INR. unfold Rdiv in *. rewrite Rmult_plus_distr_r. lra.
Qed.
Lemma gam_nonneg k : 0 <= gam k.
Proof.
  pose proof n_ge1. eapply Rle_trans; [|apply gam_ge]. apply Rmult_le_pos; [apply pos_INR|]. left. apply Rinv_0_lt_compat. lra.
Qed.
Lemma gam_incr k : gam k < gam (Datatypes.S k).
Proof.
  pose proof (gamma_grows _ (gam_nonneg k)). pose proof n_ge1. cbn [gam].
  assert (0 < / (2 * n)) by (apply Rinv_0_lt_compat; lra). lra.
Qed.
Lemma gamma_all : (forall g, let g' := next_gamma N g in n * (g' * g') - g' = n * (g * g)) /\
  (forall k, gam k < gam (Datatypes.S k)) /\ (forall k, 0 < gam (Datatypes.S k)) /\
  (forall k, INR k / (2 * n) <= gam k) /\
  (forall k, 0 < next_alpha N (gam (Datatypes.S k)) <= 1) /\ next_alpha N (gam 1) = 1.
Proof.
  split; [exact gamma_eq|]. split; [exact gam_incr|].
  split; [intros k; pose proof (gamma_pos (gam k)); pose proof inv_n_pos; cbn [gam]; lra|].
  split; [exact gam_ge|]. split; [intros k; apply alpha_range|]. apply gamma_first.
Qed.
End G.

Section A.
Context {S : Type} `{Num S}.
Implicit Types (a : Agent S) (x : Ext S) (p : AgentParams S) (o : aop S).

Definition mom_same a a' : Prop := a_gamma a' = a_gamma a /\ a_alpha a' = a_alpha a.
Definition mom_zero a : Prop := a_gamma a = n0 /\ a_alpha a = n0.
Definition mom a a' : Prop := mom_same a a' \/ mom_zero a'.

Lemma mom_refl a : mom a a. Proof. left. split; auto. Qed.
Lemma mom_trans a b c : mom a b -> mom b c -> mom a c.
Proof. unfold mom, mom_same, mom_zero. intuition congruence. Qed.
Lemma same_mom a a' : a_gamma a' = a_gamma a -> a_alpha a' = a_alpha a -> mom a a'. Proof. left. split; auto. Qed.

Lemma initAccel_mom a a' : ag_initializeAcceleration a = Ok a' -> mom a a'.
Proof.
  unfold ag_initializeAcceleration. intros E. apply check_Ok in E. destruct E as [_ E].
  destruct (is_init a); injection E as <-; [right; split; reflexivity|apply mom_refl].
Qed.
Lemma start_mom a a' : ag_startOptimizationLoop a = Ok a' -> mom a a'.
Proof. intros E. apply startLoop_form in E. destruct E as [-> _]. apply same_mom; reflexivity. Qed.
Lemma setX_mom a M a' : ag_setX a M = Ok a' -> mom a a'.
Proof.
  unfold ag_setX. intros E. do 3 (apply check_Ok in E; destruct E as [_ E]). apply bind_Ok in E. destruct E as (X & _ & E).
  destruct (p_accel _).
  - apply initAccel_mom in E. eapply mom_trans; [|exact E]. apply same_mom; reflexivity.
  - injection E as <-. apply same_mom; reflexivity.
Qed.
Lemma initGlobal_mom a TW a' : ag_initializeInGlobalFrame a TW = Ok a' -> mom a a'.
Proof.
  unfold ag_initializeInGlobalFrame. intros E. apply bind_Ok in E. destruct E as (Y & _ & E).
  apply check_Ok in E; destruct E as [_ E]. apply bind_Ok in E. destruct E as (RW & _ & E).
  apply bind_Ok in E. destruct E as (u & _ & E). apply bind_Ok in E. destruct E as (T & _ & E).
  apply bind_Ok in E. destruct E as (T2 & _ & E). apply require_Ok in E. destruct E as [_ E].
  apply bind_Ok in E. destruct E as (X & _ & E). apply bind_Ok in E. destruct E as (a1 & E1 & E).
  apply bind_Ok in E. destruct E as (a2 & E2 & E).
  assert (M1 : mom a a1).
  { destruct (robust _).
    - destruct (initRobust_form _ _ E1) as [-> _]. apply same_mom; cbn; rewrite endLoop_form; reflexivity.
    - injection E1 as <-. apply same_mom; cbn; rewrite endLoop_form; reflexivity. }
  assert (M2 : mom a1 a2).
  { destruct (p_accel _); [apply initAccel_mom; auto|injection E2 as <-; apply mom_refl]. }
  eapply mom_trans; [exact M1|]. eapply mom_trans; [exact M2|].
  destruct (a_thread a); [apply start_mom; auto|injection E as <-; apply mom_refl].
Qed.
Lemma initialize_mom x ls a TI a' : AInv a -> ag_initialize x ls a TI = Ok a' -> mom a a'.
Proof.
  intros I E. destruct (initialize_cases _ _ _ _ _ E I) as [->|[[-> _]|(_ & _ & _ & _ & a0 & T & T' & a1 & _ & Ha0 & _ & _ & _ & _ & _ & _ & [X Ha1] & D)]].
  - apply mom_refl.
  - apply same_mom; reflexivity.
  - assert (M : mom a a1) by (rewrite Ha1, Ha0; apply same_mom; reflexivity).
    destruct D as [[b ->]|(J & a2 & b & _ & E2 & ->)].
    + eapply mom_trans; [exact M|]. apply same_mom; reflexivity.
    + eapply mom_trans; [exact M|]. eapply mom_trans; [apply (initGlobal_mom _ _ _ E2)|]. apply same_mom; reflexivity.
Qed.
Lemma restart_mom opt a b a' : ag_restart opt a b = Ok a' -> mom a a'.
Proof.
  unfold ag_restart. destruct (p_accel _ && is_init a); intros E; [|injection E as <-; apply mom_refl].
  apply bind_Ok in E. destruct E as [[a1 s] [_ E]]. injection E as <-. right. split; reflexivity.
Qed.
Lemma mid_mom a c : mom a (weights_mid a c).
Proof. apply same_mom; reflexivity. Qed.
Lemma reset_mom a a' : weights_reset a = Ok a' -> mom a a'.
Proof.
  unfold weights_reset. intros E. destruct (_ <? _)%Z; [|injection E as <-; apply mom_refl].
  apply bind_Ok in E. destruct E as (a3 & E3 & E2). injection E2 as <-.
  destruct (setXInit_form _ _ E3) as (X & _ & -> & _). apply same_mom; reflexivity.
Qed.
Lemma pg_mom a a' : a' = sa_pg a (a_pg a') -> mom a a'.
Proof. intros E. rewrite E. apply same_mom; reflexivity. Qed.
Lemma updWeights_mom a a' : AInv a -> ag_updateMeasurementWeights a = Ok a' -> mom a a'.
Proof.
  unfold ag_updateMeasurementWeights. intros I E. destruct (is_init a); cbn [negb] in E; [|injection E as <-; apply mom_refl].
  apply bind_Ok in E. destruct E as (ps & _ & E). apply bind_Ok in E. destruct E as (a1 & E1 & E).
  apply bind_Ok in E. destruct E as (c & _ & E). apply bind_Ok in E. destruct E as (a2 & E2 & E).
  destruct (reweights_form _ _ _ E1) as [F1 _]. apply pg_mom in F1.
  eapply mom_trans; [exact F1|]. eapply mom_trans; [apply (mid_mom a1 c)|]. eapply mom_trans; [apply (reset_mom _ _ E2)|].
  destruct (p_accel _); [apply initAccel_mom; auto|injection E as <-; apply mom_refl].
Qed.
Lemma updNbr_mom x a k dict a' : AInv a -> ag_updateNeighborPoses x a k dict = Ok a' -> mom a a'.
Proof.
  intros I E. destruct (updNbr_form _ _ _ _ _ E I) as (_ & [[_ ->]|(_ & a1 & _ & Ha1 & _ & D)]); [apply mom_refl|].
  assert (M : mom a a1). { destruct Ha1 as [->|(_ & T & _ & Ei)]; [apply mom_refl|apply (initGlobal_mom _ _ _ Ei)]. }
  destruct D as [[_ ->]|(_ & c & _ & ->)]; [exact M|]. eapply mom_trans; [exact M|]. apply same_mom; reflexivity.
Qed.
Lemma iterate_mom x opt a b a' s : ag_iterate x opt a b = Ok (a', s) ->
  mom a a' \/
  (a_gamma a' = next_gamma (p_numRobots (a_params a)) (a_gamma a) /\
   a_alpha a' = next_alpha (p_numRobots (a_params a)) (next_gamma (p_numRobots (a_params a)) (a_gamma a))).
Proof.
  intros E. destruct (p_accel (a_params a)) eqn:Ha; destruct (a_state a) eqn:Hs;
    try (pose proof (iterate_split _ _ _ _ _ _ E) as Q; unfold is_init in Q; rewrite Hs in Q; cbn [state_eqb] in Q;
         cbv zeta in Q; destruct Q as [-> _]; left; apply same_mom; reflexivity).
  - destruct (iterate_restart _ _ _ _ _ _ Ha Hs E) as (_ & B & _). destruct (_ =? 0)%N; auto. left. right. split; apply B.
  - pose proof (iterate_split _ _ _ _ _ _ E) as Q. unfold is_init in Q. rewrite Hs, Ha in Q. cbn [state_eqb] in Q. cbv zeta in Q.
    destruct Q as (a2 & a3 & Q1 & Q2 & Q3). destruct (restart_end _ _ _ _ _ Q2 Q3) as (_ & _ & _ & _ & H5 & H6).
    destruct (updateX_keeps _ _ _ _ _ _ Q1) as (K1 & K2 & _). left. apply same_mom; rewrite ?H5, ?H6, ?K1, ?K2; reflexivity.
Qed.

(** Each call keeps the two parameters, zeroes both, or (iterations only) takes
    one step of the recurrence. *)
Lemma step_mom x a o a' : AInv a -> ag_step x a o = Ok a' ->
  mom a a' \/
  (is_iter (mkEv a o a') = true /\ a_state a = INITIALIZED /\
   a_gamma a' = next_gamma (p_numRobots (a_params a)) (a_gamma a) /\
   a_alpha a' = next_alpha (p_numRobots (a_params a)) (next_gamma (p_numRobots (a_params a)) (a_gamma a))).
Proof.
  intros I E.
  assert (IT : forall opt b s, ag_iterate x opt a b = Ok (a', s) -> mom a a' \/ a_state a = INITIALIZED /\
     a_gamma a' = next_gamma (p_numRobots (a_params a)) (a_gamma a) /\
     a_alpha a' = next_alpha (p_numRobots (a_params a)) (next_gamma (p_numRobots (a_params a)) (a_gamma a))).
  { intros opt b s E'. destruct (iterate_mom _ _ _ _ _ _ E') as [M|M]; auto.
    destruct (a_state a) eqn:Hs; auto; left; pose proof (iterate_split _ _ _ _ _ _ E') as Q; unfold is_init in Q; rewrite Hs in Q;
      cbn [state_eqb] in Q; cbv zeta in Q; destruct Q as [-> _]; apply same_mom; reflexivity. }
  destruct o; cbn [ag_step] in E; try (injection E as <-; left; apply same_mom; reflexivity).
  - left; eapply setX_mom; eauto.
  - left. destruct (setXInit_form _ _ E) as (X & _ & -> & _). apply same_mom; reflexivity.
  - left. destruct (addA_form _ _ _ E) as [[_ ->]|(_ & g & _ & ->)]; [apply mom_refl|apply same_mom; reflexivity].
  - left. destruct (setMeasA_form _ _ _ _ _ E) as [_ [[_ ->]|(_ & g0 & g & _ & _ & ->)]]; [apply mom_refl|apply same_mom; reflexivity].
  - left; eapply initialize_mom; eauto.
  - left; eapply initGlobal_mom; eauto.
  - apply bind_Ok in E. destruct E as [[a1 s] [E1 E]]. injection E as ->. destruct (IT _ _ _ E1) as [M|M]; auto.
  - destruct (a_thread a) eqn:Ht; [|injection E as <-; left; apply mom_refl].
    apply bind_Ok in E. destruct E as [[a1 s] [E1 E]]. injection E as ->. destruct (IT _ _ _ E1) as [M|M]; auto.
  - left. apply reset_form in E. rewrite E. apply same_mom; reflexivity.
  - left; apply start_mom; auto.
  - left. injection E as <-. rewrite endLoop_form. apply same_mom; reflexivity.
  - left; eapply restart_mom; eauto.
  - left; eapply updNbr_mom; eauto.
  - left. destruct (updAux_form _ _ _ _ E) as (_ & _ & [[_ ->]|(_ & c & _ & ->)]); [apply mom_refl|apply same_mom; reflexivity].
  - left. unfold ag_clearActiveNeighborPoses in E. apply bind_Ok in E. destruct E as (l & _ & E). injection E as <-. apply same_mom; reflexivity.
  - left. unfold ag_setLiftingMatrix in E. do 2 (apply check_Ok in E; destruct E as [_ E]). injection E as <-. apply same_mom; reflexivity.
  - left. unfold ag_setGlobalAnchor in E. do 2 (apply check_Ok in E; destruct E as [_ E]). injection E as <-. apply same_mom; reflexivity.
  - left. destruct (setActive_form _ _ _ _ I E) as [[_ ->]|(_ & -> & _)]; [apply mom_refl|apply same_mom; reflexivity].
  - left; apply updWeights_mom; auto.
  - left. apply bind_Ok in E. destruct E as [[a1 s] [E1 E]]. injection E as ->. destruct (setWeight_form _ _ _ _ _ _ _ E1) as [-> _]. apply same_mom; reflexivity.
  - left. destruct (initRobust_form _ _ E) as [-> _]. apply same_mom; reflexivity.
  - left. apply bind_Ok in E. destruct E as [[a1 s] [E1 E]]. injection E as ->. destruct (anchorFirst_form _ _ _ E1 I) as [-> _]. apply same_mom; reflexivity.
  - left. apply bind_Ok in E. destruct E as [[a1 s] [E1 E]]. injection E as ->. destruct (anchorWith_form _ _ _ _ E1 I) as [-> _]. apply same_mom; reflexivity.
Qed.

Lemma c38_step x id p os a o a' : areach x id p os a -> ag_step x a o = Ok a' ->
  (a_gamma a' = a_gamma a /\ a_alpha a' = a_alpha a) \/ (a_gamma a' = n0 /\ a_alpha a' = n0) \/
  (is_iter (mkEv a o a') = true /\ a_state a = INITIALIZED /\
   a_gamma a' = next_gamma (p_numRobots p) (a_gamma a) /\ a_alpha a' = next_alpha (p_numRobots p) (a_gamma a')).
Proof.
  intros R E. pose proof (areach_inv _ _ _ _ _ R) as I. destruct (hist_all _ _ _ _ _ R) as (_ & Hp & _).
  destruct (step_mom _ _ _ _ I E) as [[M|M]|(A & B & C & D)]; auto. right. right. rewrite Hp in C, D. rewrite C. auto.
Qed.
End A.

(** In every reachable state gamma is that of k steps from 0 and alpha fits. *)
Lemma c38_reach {S} `{Num S} (x : Ext S) id p os a : areach x id p os a ->
  exists k, (N.of_nat k <= SpecAgent.count is_iter (history x id p os))%N /\ a_gamma a = Nat.iter k (next_gamma (p_numRobots p)) n0 /\
    a_alpha a = match k with O => n0 | _ => next_alpha (p_numRobots p) (a_gamma a) end.
Proof.
  intros R0. pattern (history x id p os), a. revert os a R0. apply hist_ind.
  - intros a E. destruct (new_form _ _ _ _ E) as (X & g & YL & _ & _ & -> & _). exists O. cbn. split; [lia|auto].
  - intros os a o a' R I Ho E (k & Hk & Hg & Ha). rewrite count_snoc.
    destruct (c38_step _ _ _ _ _ _ _ R E) as [[E1 E2]|[[E1 E2]|(Hi & Hs & E1 & E2)]].
    + exists k. rewrite E1, E2. split; [destruct (is_iter _); lia|auto].
    + exists O. rewrite E1, E2. cbn. split; [destruct (is_iter _); lia|auto].
    + exists (Datatypes.S k). cbn [Nat.iter nat_rect]. change (nat_rect _ ?z ?f ?n) with (Nat.iter n (next_gamma (p_numRobots p)) n0).
      rewrite Hi. split; [lia|]. split; [rewrite E1, Hg; reflexivity|exact E2].
Qed.

(** ** The recurrence determines gamma *)
Section U.
Local Open Scope R_scope.
Variable N : N.
Hypothesis HN : (1 <= N < 2147483648)%N.
Local Notation n := (IZR (Z.of_N N)).

Lemma gamma_seq_gam g : gamma_seq N g -> forall k, g k = gam N k.
Proof.
  intros [G0 GS] k. induction k as [|k IH]; [exact G0|]. destruct (GS k) as [Gp Ge]. rewrite IH in Ge.
  pose proof (gamma_eq N HN (gam N k)) as E. cbv zeta in E. pose proof (gamma_pos N HN (gam N k)) as P. pose proof (inv_n_pos N HN) as IP.
  pose proof (n_ge1 N HN) as N1. cbn [gam]. set (x := g (S k)) in *. set (y := next_gamma N (gam N k)) in *. set (w := gam N k) in *. unfold sq in Ge.
  assert (Hw : 0 <= n * (w * w)) by (apply Rmult_le_pos; [lra|apply Rle_0_sqr]).
  assert (X1 : 1 <= n * x). { apply Rmult_le_reg_l with x; auto. nra. }
  assert (Y1 : 1 <= n * y). { apply Rmult_le_reg_l with y; nra. }
  assert (F : (x - y) * (n * x + n * y - 1) = 0) by nra.
  apply Rmult_integral in F. destruct F; lra.
Qed.
Lemma gam_seq : gamma_seq N (gam N).
Proof.
  split; [reflexivity|]. intros k. pose proof (gamma_pos N HN (gam N k)) as P. pose proof (inv_n_pos N HN) as IP.
  split; [cbn [gam]; lra|]. unfold sq. apply (gamma_eq N HN).
Qed.

Lemma c38_seq : (exists g, gamma_seq N g) /\ forall g, gamma_seq N g ->
  (forall k, g (S k) = next_gamma N (g k)) /\
  (forall k, g k < g (S k)) /\ (forall k, INR k / (2 * n) <= g k) /\
  (forall k, next_alpha N (g (S k)) = 1 / (g (S k) * n) /\ 0 < next_alpha N (g (S k)) <= 1) /\ next_alpha N (g 1%nat) = 1.
Proof.
  split; [exists (gam N); exact gam_seq|]. intros g G. pose proof (gamma_seq_gam g G) as E.
  destruct (gamma_all N HN) as (_ & A & _ & B & C & D).
  split; [intros k; rewrite !E; reflexivity|]. split; [intros k; rewrite !E; apply A|]. split; [intros k; rewrite E; apply B|].
  split; [|rewrite E; exact D]. intros k. rewrite !E. split; [reflexivity|apply C].
Qed.
End U.

Lemma iter_gam N k : Nat.iter k (next_gamma N) (n0 : R) = gam N k.
Proof. induction k as [|k IH]; [reflexivity|]. cbn [gam]. rewrite <- IH. reflexivity. Qed.
Lemma c38_state (x : Ext R) id p os a : (1 <= p_numRobots p < 2147483648)%N -> areach x id p os a ->
  forall g, gamma_seq (p_numRobots p) g ->
  exists k, (N.of_nat k <= SpecAgent.count is_iter (history x id p os))%N /\ a_gamma a = g k /\
    a_alpha a = match k with O => 0%R | _ => (1 / (g k * IZR (Z.of_N (p_numRobots p))))%R end.
Proof.
  intros HN R g G. destruct (c38_reach _ _ _ _ _ R) as (k & A & B & C). rewrite iter_gam in B. exists k.
  rewrite (gamma_seq_gam _ HN g G k), <- B. rewrite B in *. auto.
Qed.

(** 2^31 robots: 2N wraps to 0. *)
Lemma x_gamma (n q : R) : (n * n * (q * q) = 0)%R ->
  xdiv (xadd (Fin 1) (xsqrt (xadd (Fin 1) (xmul (xmul (Fin 4) (xmul (Fin n) (Fin n))) (xmul (Fin q) (Fin q)))))) (Fin 0) = PInf.
Proof.
  intros Z. unfold xmul, xadd, xsqrt. replace (1 + 4 * (n * n) * (q * q))%R with 1%R by lra.
  destruct (Rlt_dec 1 0); [lra|]. rewrite sqrt_1. unfold xdiv.
  destruct (Req_EM_T 0 0); [|lra]. unfold xsign. destruct (Rlt_dec 0 (1 + 1)); [reflexivity|lra].
Qed.
Lemma u32_wrap : u32 (2 * 2147483648) = 0%N. Proof. reflexivity. Qed.
Lemma c38_wrap : next_gamma 2147483648 (Fin 0) = PInf /\ next_alpha 2147483648 (next_gamma 2147483648 (Fin 0)) = Fin 0.
Proof.
  assert (E : next_gamma 2147483648 (Fin 0) = PInf).
  { unfold next_gamma. rewrite u32_wrap. apply (x_gamma (IZR (Z.of_N 2147483648)) 0). ring. }
  split; auto. rewrite E. unfold next_alpha. transitivity (xdiv (Fin 1) (xsign (IZR (Z.of_N 2147483648)))); [reflexivity|].
  unfold xsign. destruct (Rlt_dec 0 (IZR (Z.of_N 2147483648))) as [|C]; [reflexivity|]. exfalso. apply C. apply IZR_lt. reflexivity.
Qed.

(** Two robots: 0, 1/2, (1 + sqrt 5) / 4. *)
Lemma c38_two : gamma_seq 2 (gam 2) /\ gam 2 1 = (1 / 2)%R /\ gam 2 2 = ((1 + sqrt 5) / 4)%R.
Proof.
  split; [apply gam_seq; lia|]. cbn [gam]. pose proof (proj1 (gamma_first 2 ltac:(lia))) as E. rewrite E.
  split; [cbn; lra|]. rewrite gamma_R by lia. cbn [Z.of_N]. replace (1 + 4 * (2 * 2) * (/ 2 * / 2))%R with 5%R by field. field.
Qed.

Lemma c38_wrap_ex : exists N, (1 <= N < two32)%N /\ next_gamma N (Fin 0) = PInf /\ next_alpha N (next_gamma N (Fin 0)) = Fin 0.
Proof. exists 2147483648%N. split; [unfold two32; lia|exact c38_wrap]. Qed.
