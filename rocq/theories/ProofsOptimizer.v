(** Proofs about the optimiser wrapper (C43). *)
From Coq Require Import List NArith ZArith Bool Arith Lia.
From Verif Require Import Base SMap Num ModelTypes ModelPoseGraph ModelProblem ModelOptimizer SpecPoseGraph SpecOptimizer ProofsPoseGraph.
Import ListNotations.
Local Open Scope res_scope.
Local Open Scope num_scope.

Section P.
Context {S : Type} `{Num S}.
Implicit Types g : PoseGraph S.

(** ** Built matrices stay *)
Lemma like_refl g : like g g.
Proof. unfold like; auto. Qed.
Lemma like_trans g1 g2 g3 : like g1 g2 -> like g2 g3 -> like g1 g3.
Proof. unfold like. intros (A1 & A2 & A3 & A4) (B1 & B2 & B3 & B4). repeat split; congruence. Qed.

Lemma quad_some g g' Q : quadraticMatrix g = Ok (g', Q) -> pg_Q g' = Some Q /\ pg_G g' = pg_G g /\ like g g'.
Proof.
  unfold quadraticMatrix. intros E. apply bind_Ok in E. destruct E as ([g1 b] & E1 & E). destruct (pg_Q g1) as [Q1|] eqn:EQ; [|discriminate].
  injection E as <- <-. split; auto. destruct (pg_Q g) eqn:EQ0; [injection E1 as <- <-; auto using like_refl|].
  unfold constructQ in E1. apply bind_Ok in E1. destruct E1 as ([Q'|] & _ & E1); injection E1 as <- _; [|congruence].
  split; [reflexivity|]. unfold like. auto.
Qed.
Lemma lin_some g g' G : linearMatrix g = Ok (g', G) -> pg_G g' = Some G /\ pg_Q g' = pg_Q g /\ like g g'.
Proof.
  unfold linearMatrix. intros E. apply bind_Ok in E. destruct E as ([g1 b] & E1 & E). destruct (pg_G g1) as [G1|] eqn:EG; [|discriminate].
  injection E as <- <-. split; auto. destruct (pg_G g) eqn:EG0; [injection E1 as <- <-; auto using like_refl|].
  unfold constructG in E1. apply bind_Ok in E1. destruct E1 as ([G'|] & _ & E1); injection E1 as <- _; [|congruence].
  split; [reflexivity|]. unfold like. auto.
Qed.
Lemma data_some g g' Q G : qp_data g = Ok (g', Q, G) -> pg_Q g' = Some Q /\ pg_G g' = Some G /\ like g g'.
Proof.
  unfold qp_data. intros E. apply bind_Ok in E. destruct E as ([g1 Q1] & E1 & E). apply bind_Ok in E. destruct E as ([g2 G2] & E2 & E).
  injection E as <- <- <-. destruct (quad_some _ _ _ E1) as (A & B & C). destruct (lin_some _ _ _ E2) as (A' & B' & C').
  split; [congruence|]. split; auto. eapply like_trans; eauto.
Qed.
Lemma data_of_some g Q G : pg_Q g = Some Q -> pg_G g = Some G -> qp_data g = Ok (g, Q, G).
Proof. intros A B. unfold qp_data, quadraticMatrix, linearMatrix. rewrite A. cbn [bind]. rewrite A. cbn [bind]. rewrite B. cbn [bind]. rewrite B. reflexivity. Qed.

Lemma same_refl g g' : same_data g g' -> same_data g' g'.
Proof. intros (_ & g0 & Q & G & _ & A & B). split; [apply like_refl|]. exists g', Q, G. split; [apply data_of_some|]; auto. Qed.
Lemma data_same g g' Q G : qp_data g = Ok (g', Q, G) -> same_data g g'.
Proof. intros E. destruct (data_some _ _ _ _ E) as (A & B & C). split; auto. exists g', Q, G. auto. Qed.

Lemma f_same g g' X : same_data g g' -> forall v, (exists g0, qp_f g X = Ok (g0, v)) <-> qp_f g' X = Ok (g', v).
Proof.
  intros ((R1 & R2 & R3 & _) & g0 & Q & G & E & A & B) v. unfold qp_f. rewrite R1, R2, R3, E, (data_of_some g' Q G A B).
  destruct (Nat.eqb (mrows X) (pg_r g)); cbn [check]; [|split; [intros [? ?]; discriminate|discriminate]].
  destruct (Nat.eqb (mcols X) _); cbn [check bind]; [|split; [intros [? ?]; discriminate|discriminate]].
  destruct (can_mul X Q && same_size (mmul X Q) X && same_size X G); cbn [require]; [|split; [intros [? ?]; discriminate|discriminate]].
  split; [intros [g1 [= _ <-]]; reflexivity|intros [= <-]; eauto].
Qed.
Lemma f_data g X g' v : qp_f g X = Ok (g', v) -> same_data g g'.
Proof.
  unfold qp_f. intros E. apply check_Ok in E. destruct E as [_ E]. apply check_Ok in E. destruct E as [_ E].
  apply bind_Ok in E. destruct E as ([[g1 Q] G] & E1 & E). apply require_Ok in E. destruct E as [_ E]. injection E as <- _. eapply data_same; eauto.
Qed.
Lemma grad_same g g' X : same_data g g' -> forall D, (exists g0, qp_grad g X = Ok (g0, D)) <-> qp_grad g' X = Ok (g', D).
Proof.
  intros (_ & g0 & Q & G & E & A & B) D. unfold qp_grad. rewrite E, (data_of_some g' Q G A B). cbn [bind].
  destruct (can_mul X Q && same_size (mmul X Q) G); cbn [require]; [|split; [intros [? ?]; discriminate|discriminate]].
  split; [intros [g1 [= _ <-]]; reflexivity|intros [= <-]; eauto].
Qed.
Lemma grad_data g X g' D : qp_grad g X = Ok (g', D) -> same_data g g'.
Proof.
  unfold qp_grad. intros E. apply bind_Ok in E. destruct E as ([[g1 Q] G] & E1 & E). apply require_Ok in E. destruct E as [_ E]. injection E as <- _.
  eapply data_same; eauto.
Qed.
Lemma same_trans g1 g2 g3 : same_data g1 g2 -> same_data g2 g3 -> same_data g1 g3.
Proof.
  intros (L1 & g0 & Q & G & E & A & B) (L2 & g0' & Q' & G' & E' & A' & B'). split; [eapply like_trans; eauto|].
  rewrite (data_of_some _ _ _ A B) in E'. injection E' as <- <- <-. exists g0, Q, G. auto.
Qed.

Context {St : Type} (L : Lib S St).

Lemma gradnorm_data g X g' v : qp_gradnorm L g X = Ok (g', v) -> same_data g g'.
Proof.
  unfold qp_gradnorm, qp_riegrad. intros E. apply bind_Ok in E. destruct E as ([g1 D] & E & F). injection F as <- _.
  apply check_Ok in E. destruct E as [_ E]. apply bind_Ok in E. destruct E as ([g2 D'] & E & F). injection F as <- _. eapply grad_data; eauto.
Qed.
Lemma gradnorm_same g g' X : same_data g g' -> forall v, (exists g0, qp_gradnorm L g X = Ok (g0, v)) <-> qp_gradnorm L g' X = Ok (g', v).
Proof.
  intros SD v. pose proof SD as ((R1 & R2 & R3 & _) & _). unfold qp_gradnorm, qp_riegrad, fits_var. rewrite R1, R2, R3.
  destruct (_ && _); cbn [check bind]; [|split; [intros [? ?]; discriminate|discriminate]].
  pose proof (grad_same g g' X SD) as GS. split.
  - intros [g0 E]. apply bind_Ok in E. destruct E as ([g1 D] & E & F). injection F as <- <-. apply bind_Ok in E. destruct E as ([g2 D'] & E & F). injection F as <- <-.
    rewrite (proj1 (GS D')) by eauto. reflexivity.
  - intros E. apply bind_Ok in E. destruct E as ([g1 D] & E & F). injection F as -> <-. apply bind_Ok in E. destruct E as ([g2 D'] & E & F). injection F as -> <-.
    destruct (proj2 (GS D') E) as [g3 E3]. exists g3. rewrite E3. reflexivity.
Qed.

(** ** The loop *)
Lemma loop_spec Y st0 r0 : forall fuel k runs, (k <= 11)%nat -> (12 <= fuel + k)%nat ->
  (forall j, (1 <= j <= k)%nat -> l_accepted L (after L st0 r0 j) = false) ->
  exists X k', tr_loop L fuel Y (after L st0 r0 k) (radius_at r0 k) (Z.of_nat k) runs =
      Ok (X, rev (map (fun j => (radius_at r0 j, radius_at r0 j)) (seq k (k' - k))) ++ runs) /\ (k < k' <= 12)%nat /\
    (forall j, (1 <= j < k')%nat -> l_accepted L (after L st0 r0 j) = false) /\
    (l_accepted L (after L st0 r0 k') = true /\ X = l_xopt L (after L st0 r0 k') \/
     k' = 12%nat /\ l_accepted L (after L st0 r0 k') = false /\ X = Y).
Proof.
  induction fuel as [|fuel IH]; intros k runs Hk Hf HR; [lia|]. cbn [tr_loop].
  change (l_run L (after L st0 r0 k) (radius_at r0 k) (radius_at r0 k)) with (after L st0 r0 (Datatypes.S k)).
  destruct (l_accepted L (after L st0 r0 (Datatypes.S k))) eqn:EA.
  - exists (l_xopt L (after L st0 r0 (Datatypes.S k))), (Datatypes.S k). replace (Datatypes.S k - k)%nat with 1%nat by lia. cbn [seq map rev app].
    split; [reflexivity|]. split; [lia|]. split; [intros j Hj; apply HR; lia|]. left. auto.
  - destruct (Z.ltb_spec 10 (Z.of_nat k)) as [L1|L1].
    + assert (k = 11%nat) by lia. subst k. exists Y, 12%nat. split; [reflexivity|]. split; [lia|].
      split; [intros j Hj; apply HR; lia|]. right. auto.
    + destruct (IH (Datatypes.S k) ((radius_at r0 k, radius_at r0 k) :: runs)) as (X & k' & E & B & C & D); [lia|lia|..].
      { intros j Hj. destruct (Nat.eq_dec j (Datatypes.S k)) as [->|]; [auto|apply HR; lia]. }
      exists X, k'. split; [|split; [lia|auto]].
      rewrite Nat2Z.inj_succ in E. unfold Z.succ in E. cbn [radius_at] in E. rewrite E.
      replace (k' - k)%nat with (Datatypes.S (k' - Datatypes.S k)) by lia. cbn [seq map rev]. rewrite <- app_assoc. reflexivity.
Qed.

Theorem tr_single : forall p g Y g1 gn, qp_gradnorm L g Y = Ok (g1, gn) -> nltb gn (ro_tol p) = false -> ro_iters p = 1%Z ->
  exists X runs, trustRegion L p g Y = Ok (g1, X, runs) /\ single_step L Y (ro_radius p) X runs.
Proof.
  intros p g Y g1 gn E T I. unfold trustRegion. rewrite E. cbn [bind]. rewrite T, I. cbn [Z.eqb Pos.eqb].
  assert (F : fits_var g1 Y = true).
  { pose proof (gradnorm_data _ _ _ _ E) as ((R1 & R2 & R3 & _) & _). unfold qp_gradnorm, qp_riegrad in E. apply bind_Ok in E.
    destruct E as (? & E & _). apply check_Ok in E. destruct E as [E _]. unfold fits_var in *. rewrite R1, R2, R3. exact E. }
  rewrite F. cbn [check].
  destruct (loop_spec Y (l_new L Y) (ro_radius p) 100 0 []) as (X & k & EL & B & C & D); [lia|lia|intros; lia|].
  change (tr_loop L 100 Y (l_new L Y) (ro_radius p) 0 []) with
    (tr_loop L 100 Y (after L (l_new L Y) (ro_radius p) 0) (radius_at (ro_radius p) 0) (Z.of_nat 0) []).
  rewrite EL. cbn [bind]. exists X, (map (fun j => (radius_at (ro_radius p) j, radius_at (ro_radius p) j)) (seq 0 k)).
  split.
  - rewrite app_nil_r, rev_involutive, Nat.sub_0_r. reflexivity.
  - exists k. split; [lia|]. auto.
Qed.

Theorem tr_converged : forall p g Y g1 gn, qp_gradnorm L g Y = Ok (g1, gn) -> nltb gn (ro_tol p) = true ->
  trustRegion L p g Y = Ok (g1, Y, []).
Proof. intros p g Y g1 gn E T. unfold trustRegion. rewrite E. cbn [bind]. rewrite T. reflexivity. Qed.

Theorem tr_many : forall p g Y g1 gn, qp_gradnorm L g Y = Ok (g1, gn) -> nltb gn (ro_tol p) = false -> ro_iters p <> 1%Z ->
  trustRegion L p g Y = Ok (g1, l_xopt L (l_run L (l_new L Y) (ro_radius p) (nofZ 5 * ro_radius p)), [(ro_radius p, nofZ 5 * ro_radius p)]).
Proof.
  intros p g Y g1 gn E T I. unfold trustRegion. rewrite E. cbn [bind]. rewrite T. destruct (Z.eqb_spec (ro_iters p) 1); [contradiction|].
  assert (F : fits_var g1 Y = true).
  { pose proof (gradnorm_data _ _ _ _ E) as ((R1 & R2 & R3 & _) & _). unfold qp_gradnorm, qp_riegrad in E. apply bind_Ok in E.
    destruct E as (? & E & _). apply check_Ok in E. destruct E as [E _]. unfold fits_var in *. rewrite R1, R2, R3. exact E. }
  rewrite F. reflexivity.
Qed.

(** ** optimize *)
Lemma tr_data p g Y g1 X runs : trustRegion L p g Y = Ok (g1, X, runs) -> same_data g g1.
Proof.
  unfold trustRegion. intros E. apply bind_Ok in E. destruct E as ([g2 gn] & E1 & E). pose proof (gradnorm_data _ _ _ _ E1) as SD.
  destruct (nltb gn (ro_tol p)); [injection E as <- _ _; auto|]. apply check_Ok in E. destruct E as [_ E].
  destruct (ro_iters p =? 1)%Z; [apply bind_Ok in E; destruct E as ([? ?] & _ & E)|]; injection E as <- _ _; auto.
Qed.
Lemma precon_data g Y V g1 W : same_data g g -> qp_precondition L g Y V = Ok (g1, W) -> same_data g g1.
Proof.
  intros SD. pose proof SD as (_ & g0 & Q & G & _ & A & B). unfold qp_precondition, hasPreconditioner. intros E.
  apply bind_Ok in E. destruct E as ([g2 b] & E1 & E). injection E as <- _. apply bind_Ok in E1. destruct E1 as ([g3 b'] & E1 & E). injection E as <- _.
  destruct (pg_precon g); [injection E1 as <- _; auto|]. unfold constructPreconditioner, quadraticMatrix in E1. rewrite A in E1. cbn [bind] in E1.
  rewrite A in E1. cbn [bind] in E1. destruct (l_chol L (precon_matrix Q)); injection E1 as <- _; auto.

Qed.
Lemma gd_data p g Y g1 X : gradientDescent L p g Y = Ok (g1, X) -> same_data g g1.
Proof.
  unfold gradientDescent. intros E. apply check_Ok in E. destruct E as [_ E]. apply bind_Ok in E. destruct E as ([g2 D] & E1 & E).
  pose proof (grad_data _ _ _ _ E1) as SD. apply bind_Ok in E. destruct E as ([g3 G] & E2 & E). injection E as <- _.
  destruct (ro_usepre p); [|injection E2 as <- _; auto]. eapply same_trans; [eauto|]. eapply precon_data; eauto. eapply same_refl; eauto.
Qed.

Theorem optimize_spec : forall p g Y g' X rr runs, optimize L p g Y = Ok (g', X, rr, runs) ->
  rr_success rr = true /\ cost_is g Y (rr_fInit rr) /\ gradnorm_is L g Y (rr_gnInit rr) /\
  cost_is g X (rr_fOpt rr) /\ gradnorm_is L g X (rr_gnOpt rr) /\
  pg_r g' = pg_r g /\ pg_d g' = pg_d g /\ pg_n g' = pg_n g /\ measurements g' = measurements g /\
  exists g1, same_data g g1 /\ 
    if ro_rtr p then trustRegion L p g1 Y = Ok (g1, X, runs) else runs = [] /\ exists g2, gradientDescent L p g1 Y = Ok (g2, X).
Proof.
  intros p g Y g' X rr runs E. unfold optimize in E. apply bind_Ok in E. destruct E as ([g1 f0] & E1 & E). apply bind_Ok in E. destruct E as ([g2 n0'] & E2 & E).
  apply bind_Ok in E. destruct E as ([[g3 X'] runs'] & E3 & E). apply bind_Ok in E. destruct E as ([g4 f1] & E4 & E). apply bind_Ok in E. destruct E as ([g5 n1'] & E5 & E).
  injection E as <- <- <- <-. cbn [rr_success rr_fInit rr_gnInit rr_fOpt rr_gnOpt].
  pose proof (f_data _ _ _ _ E1) as D1. pose proof (gradnorm_data _ _ _ _ E2) as D2. pose proof (f_data _ _ _ _ E4) as D4. pose proof (gradnorm_data _ _ _ _ E5) as D5.
  pose proof (same_trans _ _ _ D1 D2) as D12.
  assert (D3 : same_data g2 g3 /\ if ro_rtr p then trustRegion L p g2 Y = Ok (g3, X', runs') else runs' = [] /\ exists g6, gradientDescent L p g2 Y = Ok (g6, X')).
  { destruct (ro_rtr p); [split; [eapply tr_data; eauto|auto]|]. apply bind_Ok in E3. destruct E3 as ([g6 X6] & E3 & E). injection E as <- <- <-.
    split; [eapply gd_data; eauto|]. split; eauto. }
  destruct D3 as [D3 M]. pose proof (same_trans _ _ _ D12 D3) as D13. pose proof (same_trans _ _ _ D13 D4) as D14. pose proof (same_trans _ _ _ D14 D5) as D15.
  assert (G2 : g2 = g1). { pose proof (proj1 (gradnorm_same g1 g1 Y (same_refl _ _ D1) n0') (ex_intro _ _ E2)). congruence. }
  assert (G4 : g4 = g3). { pose proof (proj1 (f_same g3 g3 X' (same_refl _ _ D3) f1) (ex_intro _ _ E4)). congruence. }
  assert (G5 : g5 = g3). { pose proof (proj1 (gradnorm_same g4 g4 X' (same_refl _ _ D4) n1') (ex_intro _ _ E5)). congruence. }
  split; auto. split; [exists g1; auto|]. split; [apply (proj2 (gradnorm_same g g1 Y D1 n0')); congruence|].
  split; [apply (proj2 (f_same g g3 X' D13 f1)); congruence|]. split; [apply (proj2 (gradnorm_same g g3 X' D13 n1')); congruence|].
  destruct D15 as ((R1 & R2 & R3 & R4) & _). repeat (split; [assumption|]).
  exists g2. split; [auto|]. destruct (ro_rtr p) eqn:ER; [|auto]. rewrite M. f_equal. f_equal. f_equal.
  unfold trustRegion in M. apply bind_Ok in M. destruct M as ([g7 gn] & M1 & M).
  assert (g7 = g2). { pose proof (proj1 (gradnorm_same g2 g2 Y (same_refl _ _ D2) gn) (ex_intro _ _ M1)). congruence. } subst g7.
  destruct (nltb gn (ro_tol p)); [injection M as <- _ _; auto|]. apply check_Ok in M. destruct M as [_ M].
  destruct (ro_iters p =? 1)%Z; [apply bind_Ok in M; destruct M as ([? ?] & _ & M)|]; injection M as <- _ _; auto.
Qed.

Lemma after_state Y r0 k : solver_state L Y (after L (l_new L Y) r0 k).
Proof. induction k; cbn; constructor; auto. Qed.

Theorem optimize_descends : forall p g Y g' X rr runs, optimize L p g Y = Ok (g', X, rr, runs) -> ro_rtr p = true ->
  descends L g Y (ro_iters p =? 1)%Z ->
  nleb (rr_fInit rr) (rr_fInit rr) = true -> nleb (rr_fOpt rr) (rr_fInit rr) = true.
Proof.
  intros p g Y g' X rr runs E HM HD HL. destruct (optimize_spec _ _ _ _ _ _ _ E) as (_ & C0 & _ & C1 & _ & _ & _ & _ & _ & g1 & SD & T).
  rewrite HM in T. assert (E' : exists gn, qp_gradnorm L g1 Y = Ok (g1, gn)).
  { unfold trustRegion in T. apply bind_Ok in T. destruct T as ([g2 gn] & T & _). exists gn.
    apply (proj1 (gradnorm_same g1 g1 Y (same_refl _ _ SD) gn)). eauto. }
  destruct E' as (gn & E').
  assert (U : cost_is g Y (rr_fOpt rr) -> nleb (rr_fOpt rr) (rr_fInit rr) = true).
  { intros [ga A]. destruct C0 as [gb B]. assert (rr_fOpt rr = rr_fInit rr) by congruence. congruence. }
  destruct (nltb gn (ro_tol p)) eqn:ET.
  - rewrite (tr_converged p g1 Y g1 gn E' ET) in T. injection T as <- _. auto.
  - destruct (Z.eqb_spec (ro_iters p) 1) as [I|I].
    + destruct (tr_single p g1 Y g1 gn E' ET I) as (X' & runs' & T' & k & Hk & Hr & _ & [[A ->]|(_ & _ & ->)]); rewrite T in T'; injection T' as -> ->; auto.
      destruct k as [|k]; [lia|]. apply (HD (after L (l_new L Y) (ro_radius p) k) (radius_at (ro_radius p) k) (radius_at (ro_radius p) k)); auto using after_state.
    + rewrite (tr_many p g1 Y g1 gn E' ET I) in T. injection T as <- _.
      apply (HD (l_new L Y) (ro_radius p) (nofZ 5 * ro_radius p)); auto; [constructor|discriminate].
Qed.

Theorem gd_spec : forall p g Y g' X, gradientDescent L p g Y = Ok (g', X) ->
  exists g1 D, qp_grad g Y = Ok (g1, D) /\
    (ro_usepre p = false -> X = l_retr L Y (mscal (- ro_step p) (l_proj L Y D))) /\
    (ro_usepre p = true -> exists V, X = l_retr L Y (mscal (- ro_step p) (l_proj L Y V)) /\
       (V = l_proj L Y D \/ exists P, pg_precon g' = Some P /\ V = l_solve L P (l_proj L Y D))).
Proof.
  intros p g Y g' X E. unfold gradientDescent in E. apply check_Ok in E. destruct E as [_ E]. apply bind_Ok in E. destruct E as ([g1 D] & E1 & E).
  exists g1, D. split; auto. apply bind_Ok in E. destruct E as ([g2 V] & E2 & E). injection E as <- <-.
  destruct (ro_usepre p); [|injection E2 as <- <-; split; [auto|discriminate]]. split; [discriminate|]. intros _.
  unfold qp_precondition in E2. apply bind_Ok in E2. destruct E2 as ([g3 b] & _ & E2). injection E2 as <- <-.
  destruct (pg_precon g3) as [P|] eqn:EP; eexists; (split; [reflexivity|]); eauto.
Qed.
End P.

From Coq Require Import Reals Lra.
Lemma radius_R (r0 : R) k : radius_at r0 k = (r0 / 4 ^ k)%R.
Proof.
  induction k; cbn [radius_at pow]; [lra|]. rewrite IHk. change (nofZ 4) with (IZR 4). change ndiv with Rdiv. field. apply pow_nonzero. lra.
Qed.
