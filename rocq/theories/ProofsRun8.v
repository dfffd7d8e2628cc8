(** The multi-robot example as a whole (C56). *)
From Coq Require Import List NArith ZArith Bool Arith Lia Lra Reals Permutation.
From Verif Require Import Base SMap Num RSum Det MatR ModelTypes ModelPoseGraph ModelProblem ModelRobust ModelPoses ModelSolver ModelChordal ModelOptimizer ModelInit ModelAgent ModelExample ModelExampleRun
  SpecPoseGraph SpecPGHist SpecCost SpecSolver SpecAgent SpecFrames SpecExample SpecInit SpecOptimizer SpecRun ProofsPoseGraph ProofsPGHist ProofsPGMain ProofsPGData ProofsCost ProofsCost2 ProofsCost4 ProofsPoses ProofsOdom
  ProofsOptimizer ProofsInit ProofsInit2 ProofsInit3 ProofsInit4 ProofsExample ProofsExample2 ProofsExample3 ProofsAgent ProofsAgent2 ProofsAgent3 ProofsFrames ProofsFrames2 ProofsRun ProofsRun2 ProofsRun3 ProofsRun4 ProofsRun5 ProofsRun6 ProofsRun7.
Import ListNotations.
Local Open Scope res_scope.
Implicit Types (g : PoseGraph R).

Lemma ds_dim d r n m ds : dataset_ok d r n m ds -> match ds with [] => O | e :: _ => mrows (mt e) end = d.
Proof.
  intros (Hs & H2 & _ & _ & _ & Q & O). destruct ds as [|e ds].
  - exfalso. assert (N2 : (2 <= n)%N). { pose proof (quot_ok n m Hs) as [_ Z]. destruct Hs. nia. }
    cbn in O. destruct (N.to_nat n - 1)%nat eqn:E; [lia|discriminate].
  - destruct (Q e (or_introl eq_refl)) as (_ & _ & _ & _ & _ & _ & (_ & _ & S3 & _)). exact S3.
Qed.

Theorem example_all x ls St (L : Lib R St) chordal opt d r n m ds acc iters X0 T :
  dataset_ok d r n m ds -> inverse_ok (x_minv x) d -> mrows (x_fixedY x d r) = r -> mcols (x_fixedY x d r) = d -> svd_sized x r d ->
  (forall i, opt_sized (opt i)) -> (N.of_nat iters < 4294967296)%N -> whole d r n X0 ->
  chordal ds = Ok T -> mrows (pa_X T) = d -> mcols (pa_X T) = (N.to_nat n * S d)%nat ->
  exists ags out Xs Ds, example x ls L chordal opt r acc iters X0 m n ds = Ok (Some (ags, out)) /\
    printed d r n m ds (l_proj L) iters out Xs Ds /\ finished d r n m (last Xs (mmul (x_fixedY x d r) (pa_X T))) ags /\
    (acc = false -> (forall i, descending (opt i)) -> forall j X X', nth_error (mmul (x_fixedY x d r) (pa_X T) :: Xs) j = Some X -> nth_error Xs j = Some X' ->
       (dataset_cost r d ds X' <= dataset_cost r d ds X)%R).
Proof.
  intros HDs HI FY1 FY2 SV SO Hit WX HT T1 T2. unfold example. rewrite (ds_dim d r n m ds HDs).
  pose proof HDs as (Hs & _ & _ & Hr & ND & _).
  destruct (central d r n ds (ds_single d r n m ds HDs) ND Hr) as (g0 & gc & -> & EC & C1 & C2 & C3 & HCen). cbn [bind]. rewrite EC. cbn [bind].
  pose proof (ds_edges d r n m ds HDs) as DE. rewrite (split_table n m Hs ds DE). cbn [bind].
  destruct (team_total x ls d r n m ds acc HDs HI (conj FY1 FY2)) as (ags0 & -> & L0 & R0). cbn [bind].
  rewrite HT. cbn [bind]. set (Y := x_fixedY x d r) in *. unfold can_mul. rewrite FY2, T1, Nat.eqb_refl. cbn [require].
  set (XS := mmul Y (pa_X T)). assert (WS : whole d r n XS) by (split; [exact FY1|exact T2]).
  destruct (start_total d r n m ds acc HDs ags0 L0 R0 gc XS WS) as (ags1 & -> & T0 & J0). cbn [bind].
  set (G := graph_of ags0 gc) in *. assert (GS : forall k, (k < m)%N -> stored d r n m ds k (G k)) by (intros k Hk; exact (graph_stored d r n m ds acc ags0 L0 R0 gc k Hk)).
  assert (HW : Forall (fun e => mweight e = 1%R) ds) by (apply (ds_weight d r n m ds HDs)).
  assert (HR : Forall2 (relabelled n m) ds (map (relabel n m) ds)) by (apply relabel_F2; auto).
  assert (M1 : (0 < m)%N) by (destruct Hs; lia). assert (RS : p_restart (ex_params (S := R) d r m acc) <> 0%N) by discriminate.
  destruct (loop_total x d r m (ex_params d r m acc) G eq_refl eq_refl eq_refl RS SV
    (fun k Hk => st_base _ _ _ _ _ _ _ (GS k Hk)) (fun k Hk => conj (st_id _ _ _ _ _ _ _ (GS k Hk)) (st_wf _ _ _ _ _ _ _ (GS k Hk)))
    (fun k e => shared_back d r n m ds acc HDs ags0 L0 R0 gc k e)
    (fun k Hk => conj (st_d _ _ _ _ _ _ _ (GS k Hk)) (conj (st_r _ _ _ _ _ _ _ (GS k Hk)) (st_priors _ _ _ _ _ _ _ (GS k Hk))))
    (fun k e Hk => st_act _ _ _ _ _ _ _ (GS k Hk) e) (map (relabel n m) ds) (fun k Hk => st_knows _ _ _ _ _ _ _ (GS k Hk)) L n ds opt gc Hs
    (fun k Hk => st_n _ _ _ _ _ _ _ (GS k Hk)) HR HW SO (conj C1 (conj C2 C3))
    (fun X W => conj (proj1 (HCen X (proj1 W) (proj2 W))) (proj1 (proj2 (HCen X (proj1 W) (proj2 W))))) iters 0%N (mkLoop ags1 0 X0 gc) [])
    as (lp & out & EL & TE & RN); [lia|split; [exact T0|]; split; [exact M1|]; split; [exact WX|left; reflexivity]|].
  cbn [p_accel ex_params lp_sel lp_agents app] in *. rewrite EL. cbn [bind].
  destruct (run_nth d r m (ex_params d r m acc) G (map (relabel n m) ds) L n ds opt gc eq_refl eq_refl RS Hs HR HW (conj C1 (conj C2 C3)) _ _ _ _ _ _ RN XS M1 J0)
    as (Xs & Ds & K1 & K2 & K3 & K4 & K5 & K6 & K7 & K8 & K9).
  destruct (reset_total x d r m acc _ G _ TE) as (ags2 & -> & L2 & V2). cbn [bind].
  exists ags2, out, Xs, Ds. split; [reflexivity|]. split; [|split; [|exact K9]].
  - constructor; auto.
    + intros j ln X D E1 E2 E3. destruct (K4 j ln X D E1 E2 E3) as (Q1 & Q2 & Q3 & Q4 & (gq & Q5) & Q6). rewrite N.add_0_l in Q1. destruct (HCen X (proj1 Q3) (proj2 Q3)) as (_ & _ & HG). eauto 10.
    + intros j ln ln' X D E1 E2 E3 E4. destruct (K6 j ln ln' X D E1 E2 E3 E4) as (Q1 & ->). split; [exact Q1|]. destruct (K4 j ln X D E1 E3 E4) as (_ & Q2 & _).
      exact (next_chosen d r n m ds acc HDs ags0 L0 R0 gc (ln_robot ln) (l_proj L X D) Q2).
  - split; [exact L2|]. intros k a Ek. destruct (V2 k a Ek) as (Q1 & Q2 & Q3 & Q4 & Q5). repeat (split; [assumption|]).
    intros l i c Hl Hi Hc. rewrite Q5. destruct K8 as [_ K8]. symmetry. apply K8; auto. assert (N.to_nat k < length ags2)%nat by (apply nth_error_Some; congruence). lia.
Qed.

Local Open Scope R_scope.
Theorem example_runs : forall x ls St (L : Lib R St) chordal opt d r n m ds acc iters X0 T,
  dataset_ok d r n m ds -> inverse_ok (x_minv x) d -> mrows (x_fixedY x d r) = r -> mcols (x_fixedY x d r) = d -> svd_sized x r d ->
  (forall i, opt_sized (opt i)) -> (N.of_nat iters < 4294967296)%N -> whole d r n X0 ->
  chordal ds = Ok T -> mrows (pa_X T) = d -> mcols (pa_X T) = (N.to_nat n * S d)%nat ->
  exists ags out Xs Ds, example x ls L chordal opt r acc iters X0 m n ds = Ok (Some (ags, out)) /\
    printed d r n m ds (l_proj L) iters out Xs Ds /\ finished d r n m (last Xs (mmul (x_fixedY x d r) (pa_X T))) ags.
Proof.
  intros x ls St L chordal opt d r n m ds acc iters X0 T HDs HI FY1 FY2 SV SO Hit WX HT T1 T2.
  destruct (example_all x ls St L chordal opt d r n m ds acc iters X0 T HDs HI FY1 FY2 SV SO Hit WX HT T1 T2) as (ags & out & Xs & Ds & E & P & F & _).
  exists ags, out, Xs, Ds. auto.
Qed.

Lemma nth_some {A B} (l : list A) (l' : list B) j u : length l = length l' -> nth_error l j = Some u -> exists b, nth_error l' j = Some b.
Proof.
  intros E Ha. assert (j < length l)%nat by (apply nth_error_Some; congruence).
  destruct (nth_error l' j) eqn:F; [eauto|]. apply nth_error_None in F. lia.
Qed.

Theorem example_descends : forall x ls St (L : Lib R St) chordal opt d r n m ds iters X0 T,
  dataset_ok d r n m ds -> inverse_ok (x_minv x) d -> mrows (x_fixedY x d r) = r -> mcols (x_fixedY x d r) = d -> svd_sized x r d ->
  (forall i, opt_sized (opt i) /\ descending (opt i)) -> (N.of_nat iters < 4294967296)%N -> whole d r n X0 ->
  chordal ds = Ok T -> mrows (pa_X T) = d -> mcols (pa_X T) = (N.to_nat n * S d)%nat ->
  exists ags out, example x ls L chordal opt r false iters X0 m n ds = Ok (Some (ags, out)) /\
    (forall ln, nth_error out 0 = Some ln -> ln_cost ln <= 2 * dataset_cost r d ds (mmul (x_fixedY x d r) (pa_X T))) /\
    forall j ln ln', nth_error out j = Some ln -> nth_error out (S j) = Some ln' -> ln_cost ln' <= ln_cost ln.
Proof.
  intros x ls St L chordal opt d r n m ds iters X0 T HDs HI FY1 FY2 SV SO Hit WX HT T1 T2.
  destruct (example_all x ls St L chordal opt d r n m ds false iters X0 T HDs HI FY1 FY2 SV (fun i => proj1 (SO i)) Hit WX HT T1 T2) as (ags & out & Xs & Ds & E & P & F & D).
  specialize (D eq_refl (fun i => proj2 (SO i))). exists ags, out. split; [exact E|]. destruct P. destruct pr_len as (K1 & K2 & _).
  assert (V : forall j ln, nth_error out j = Some ln -> exists X, nth_error Xs j = Some X /\ ln_cost ln = 2 * dataset_cost r d ds X).
  { intros j ln Hj. destruct (nth_some out Xs j ln (eq_sym K1) Hj) as (X & HX). destruct (nth_some out Ds j ln (eq_sym K2) Hj) as (DD & HD).
    exists X. split; [exact HX|]. apply (pr_line j ln X DD Hj HX HD). }
  split.
  - intros ln Hl. destruct (V _ _ Hl) as (X & HX & ->). pose proof (D 0%nat _ X eq_refl HX). lra.
  - intros j ln ln' H1 H2. destruct (V _ _ H1) as (X & HX & ->). destruct (V _ _ H2) as (X' & HX' & ->). pose proof (D (S j) X X' HX HX'). lra.
Qed.

(** ** Noise-free data *)
Lemma ds_reached d r n m ds : dataset_ok d r n m ds -> forall i, (i < n)%N -> reached ds i.
Proof.
  intros (_ & _ & _ & _ & _ & _ & O) i. induction i as [|i IH] using N.peano_ind; intros Hi; [constructor|].
  assert (I : In i (map mp1 (filter next_pose ds))) by (rewrite O; apply in_map_iff; exists (N.to_nat i); split; [lia|apply in_seq; lia]).
  apply in_map_iff in I. destruct I as (e & Ee & Ie). apply filter_In in Ie. destruct Ie as [Ie Nx]. unfold next_pose in Nx. apply N.eqb_eq in Nx.
  replace (N.succ i) with (mp2 e) by lia. apply reached_fwd; auto. rewrite Ee. apply IH. lia.
Qed.

Lemma lifted_edge d r n (Y : Mx R) (X : Mx R) e i j : mcols Y = d -> mrows Y = r -> mrows X = d -> mcols X = n -> 
  (forall a c, (a < d)%nat -> (c < d)%nat -> pose_blk d X j a c = rsum d (fun b => pose_blk d X i a b * mR e b c)) ->
  (forall a, (a < d)%nat -> pose_blk d X j a d = pose_blk d X i a d + rsum d (fun b => pose_blk d X i a b * mt e b 0%nat)) ->
  edge_cost r d e (pose_blk d (mmul Y X) i) (pose_blk d (mmul Y X) j) = 0.
Proof.
  intros Y1 Y2 X1 X2 H1 H2.
  assert (B : forall i a c, pose_blk d (mmul Y X) i a c = rsum d (fun k => Y a k * pose_blk d X i k c)) by (intros; unfold pose_blk, mmul; cbn [Num.mat]; rewrite Y1; reflexivity).
  apply ProofsInit4.edge_cost_zero.
  - intros a c Ha Hc. rewrite B. rewrite (rsum_ext d _ (fun k => rsum d (fun b => Y a k * pose_blk d X i k b * mR e b c))).
    2:{ intros k Hk. rewrite H1, <- rsum_scal by auto. apply rsum_ext. intros. ring. }
    rewrite rsum_swap. apply rsum_ext. intros b Hb. rewrite B, <- rsum_scal_r. apply rsum_ext. intros. ring.
  - intros a Ha. rewrite !B. rewrite (rsum_ext d _ (fun k => Y a k * pose_blk d X i k d + rsum d (fun b => Y a k * pose_blk d X i k b * mt e b 0%nat))).
    2:{ intros k Hk. rewrite H2, Rmult_plus_distr_l by auto. f_equal. rewrite <- rsum_scal. apply rsum_ext. intros. ring. }
    rewrite rsum_add. f_equal. rewrite rsum_swap. apply rsum_ext. intros b Hb. rewrite B, <- rsum_scal_r. apply rsum_ext. intros. ring.
Qed.

Theorem example_exact : forall x ls St (L : Lib R St) qr svd determinant opt d r n m ds iters X0 (Rt tt : nat -> Mx R) B1 B2 B3,
  dataset_ok d r n m ds -> inverse_ok (x_minv x) d -> mrows (x_fixedY x d r) = r -> mcols (x_fixedY x d r) = d -> svd_sized x r d ->
  (forall i, opt_sized (opt i) /\ descending (opt i)) -> (N.of_nat iters < 4294967296)%N -> whole d r n X0 ->
  (n * N.of_nat (d * d) < two32)%N -> (forall e, In e ds -> 0 < mkappa e /\ 0 < mtau e) ->
  (forall i, (i < N.to_nat n)%nat -> rotation d (Rt i)) ->
  (forall e, In e ds -> consistent d e (Rt (N.to_nat (mp1 e))) (tt (N.to_nat (mp1 e))) (Rt (N.to_nat (mp2 e))) (tt (N.to_nat (mp2 e)))) ->
  constructBMatrices ds = Ok (B1, B2, B3) ->
  solves_if_possible qr (last_cols ((N.to_nat n - 1) * (d * d)) B3) -> solves_if_possible qr (last_cols (d * (N.to_nat n - 1)) B1) ->
  SpecSolver.svd_sized svd d -> (forall M, rotation d M -> svd_at svd d d M) -> (forall A, mrows A = d -> mcols A = d -> determinant A = det d A) ->
  exists ags out, example x ls L (chordalInitialization qr svd determinant) opt r false iters X0 m n ds = Ok (Some (ags, out)) /\
    forall ln, In ln out -> ln_cost ln = 0.
Proof.
  intros x ls St L qr svd dt opt d r n m ds iters X0 Rt tt B1 B2 B3 HDs HI FY1 FY2 SV SO Hit WX Hsz HK Hrot Hc EB L3 L1 Hss Hsv Hdt.
  pose proof HDs as (_ & _ & Hd & _ & _ & Q & _). pose proof (ds_single d r n m ds HDs) as (_ & PC & _). 
  destruct (chordal_exact qr svd dt d (N.to_nat n) ds Rt tt B1 B2 B3) as (T & ET & TT & VT); auto; rewrite ?N2Nat.id; auto.
  { intros e He. destruct (Q e He) as (_ & _ & _ & _ & _ & _ & (S1 & S2 & S3 & S4)). destruct (HK e He). repeat split; auto. }
  { apply (ds_reached d r n m ds HDs). }
  destruct TT as (_ & Di & _ & T1 & T2). assert (T2' : mcols (pa_X T) = (N.to_nat n * S d)%nat) by lia.
  destruct (example_descends x ls St L (chordalInitialization qr svd dt) opt d r n m ds iters X0 T HDs HI FY1 FY2 SV SO Hit WX ET T1 T2') as (ags & out & E & H0 & H1).
  destruct (example_runs x ls St L (chordalInitialization qr svd dt) opt d r n m ds false iters X0 T HDs HI FY1 FY2 SV (fun i => proj1 (SO i)) Hit WX ET T1 T2') as (ags' & out' & Xs & Ds & E' & P & _).
  rewrite E in E'. injection E' as <- <-.
  exists ags, out. split; [exact E|]. set (XS := mmul (x_fixedY x d r) (pa_X T)) in *.
  assert (Z : dataset_cost r d ds XS = 0).
  { assert (BI : forall i a c, pblk T i a c = pose_blk d (pa_X T) i a c) by (intros; unfold pblk, pose_blk; rewrite Di, Nat.add_1_r; reflexivity).
    unfold dataset_cost. rewrite rsumL_zero; [ring|]. intros e He. destruct (in_range_ms (N.to_nat n) ds PC e He) as [I1 I2].
    apply (lifted_edge d r _ (x_fixedY x d r) (pa_X T) e _ _ FY2 FY1 T1 eq_refl).
    - intros a c Ha Hcc. rewrite <- BI. rewrite (proj1 (VT _ a I2 Ha) c Hcc), (seen_rot_edge d ds Rt tt Hc e a c He Ha Hcc). apply rsum_ext.
      intros b Hb. rewrite <- BI, (proj1 (VT _ a I1 Ha) b Hb). reflexivity.
    - intros a Ha. rewrite <- !BI. rewrite (proj2 (VT _ a I2 Ha)), (proj2 (VT _ a I1 Ha)), (seen_pos_edge d ds Rt tt Hc e a He Ha). f_equal.
      apply rsum_ext. intros b Hb. rewrite <- BI, (proj1 (VT _ a I1 Ha) b Hb). reflexivity. }
  assert (UP : forall j ln, nth_error out j = Some ln -> ln_cost ln <= 0).
  { induction j as [|j IH]; intros ln Hj; [specialize (H0 ln Hj); lra|].
    destruct (nth_error out j) as [l0|] eqn:E0; [|apply nth_error_None in E0; assert (S j < length out)%nat by (apply nth_error_Some; congruence); lia].
    specialize (IH l0 eq_refl). specialize (H1 j l0 ln E0 Hj). lra. }
  intros ln Hln. apply In_nth_error in Hln. destruct Hln as (j & Hj). specialize (UP j ln Hj). destruct P. destruct pr_len as (K1 & K2 & _).
  destruct (nth_some out Xs j ln (eq_sym K1) Hj) as (X & HX). destruct (nth_some out Ds j ln (eq_sym K2) Hj) as (DD & HD).
  destruct (pr_line j ln X DD Hj HX HD) as (_ & _ & _ & C & _). rewrite C in *.
  assert (0 <= dataset_cost r d ds X).
  { unfold dataset_cost. apply Rmult_le_pos; [lra|]. apply rsumL_nonneg. intros e He. apply edge_nonneg. destruct (HK e He). destruct (Q e He) as (_ & _ & _ & _ & _ & W & _). repeat split; lra. }
  lra.
Qed.

(** ** The optimiser wrapper *)
Lemma f_resize g X Y g1 v : qp_f g X = Ok (g1, v) -> sized (mrows X) (mcols X) Y -> exists v', qp_f g Y = Ok (g1, v').
Proof.
  intros E [Y1 Y2]. unfold qp_f in *. rewrite Y1, Y2. apply check_Ok in E. destruct E as [-> E]. apply check_Ok in E. destruct E as [-> E]. cbn [check].
  apply bind_Ok in E. destruct E as ([[g2 Q] G] & -> & E). cbn [bind]. apply require_Ok in E. destruct E as [C E]. injection E as <- _.
  unfold can_mul, same_size in *. cbn [mrows mcols mmul] in *. rewrite Y1, Y2, C. cbn [require]. eauto.
Qed.
Lemma f_gradnorm {St} (L : Lib R St) g X g1 v : qp_f g X = Ok (g1, v) -> exists gn, qp_gradnorm L g1 X = Ok (g1, gn).
Proof.
  intros E. pose proof (f_data _ _ _ _ E) as SD.
  assert (F : exists gn g0, qp_gradnorm L g X = Ok (g0, gn)).
  { unfold qp_f in E. apply check_Ok in E. destruct E as [A E]. apply check_Ok in E. destruct E as [B E].
    apply bind_Ok in E. destruct E as ([[g2 Q] G] & EQ & E). apply require_Ok in E. destruct E as [C _].
    unfold qp_gradnorm, qp_riegrad, fits_var, qp_grad. rewrite Nat.add_1_r, A, B, EQ. cbn [andb check bind].
    apply andb_true_iff in C. destruct C as [C C3]. apply andb_true_iff in C. destruct C as [C1 C2].
    assert (C4 : same_size (mmul X Q) G = true).
    { unfold same_size in *. apply andb_true_iff in C2, C3. destruct C2 as [P1 P2], C3 as [P3 P4]. apply Nat.eqb_eq in P1, P2, P3, P4. rewrite P1, P2, P3, P4, !Nat.eqb_refl. reflexivity. }
    rewrite C1, C4. cbn [andb require bind]. eauto. }
  destruct F as (gn & g0 & F). exists gn. apply (gradnorm_same L g g1 X SD). eauto.
Qed.

Theorem wrapper_ok : forall St (L : PoseGraph R -> Lib R St) p opt, ro_rtr p = true -> descent_solver L (ro_iters p =? 1)%Z -> is_wrapper L p opt ->
  (forall g X g1 v, qp_f g X = Ok (g1, v) -> exists g' X' rr runs, optimize (L g) p g X = Ok (g', X', rr, runs)) /\ opt_sized opt /\ descending opt.
Proof.
  intros St L p opt HR HH HW.
  assert (K : forall g X g1 v, qp_f g X = Ok (g1, v) -> exists g' X' rr runs, optimize (L g) p g X = Ok (g', X', rr, runs) /\ sized (mrows X) (mcols X) X' /\
    forall v', cost_is g X' v' -> v' <= v).
  { intros g X g1 v E. destruct (f_gradnorm (L g) g X g1 v E) as (gn & N0).
    destruct (tr_result (L g) p g g1 X g1 gn N0 (HH g X)) as (X' & runs & ET & SX & CX).
    destruct (f_resize g X X' g1 v E SX) as (v' & F1). pose proof (f_data _ _ _ _ E) as SD.
    assert (F1' : qp_f g1 X' = Ok (g1, v')) by (apply (f_same g g1 X' SD); eauto).
    destruct (f_gradnorm (L g) g X' g1 v' F1) as (gn1 & N1).
    exists g1, X', (mkRR true v gn v' gn1), runs. split.
    - unfold optimize. rewrite E. cbn [bind]. rewrite N0. cbn [bind]. rewrite HR, ET. cbn [bind]. rewrite F1'. cbn [bind]. rewrite N1. reflexivity.
    - split; [exact SX|]. intros w Cw. apply (CX v w); auto. exists g1. exact E. }
  split; [|split].
  - intros g X g1 v E. destruct (K g X g1 v E) as (g' & X' & rr & runs & EO & _). eauto.
  - intros g X g1 v E. destruct (K g X g1 v E) as (g' & X' & rr & runs & EO & SX & _). rewrite (HW _ _ _ _ _ _ EO). exact SX.
  - intros g X g1 v g2 v' E E2. destruct (K g X g1 v E) as (g' & X' & rr & runs & EO & _ & CX). rewrite (HW _ _ _ _ _ _ EO) in E2. apply CX. exists g2. exact E2.
Qed.
