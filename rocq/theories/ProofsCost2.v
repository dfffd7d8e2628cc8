(** Cost identity and its consequences. *)
From Coq Require Import List NArith ZArith Arith Bool Lia Reals Lra.
From Verif Require Import Base SMap Num RSum ModelTypes ModelPoseGraph ModelProblem SpecPoseGraph SpecPGHist SpecCost
  ProofsPoseGraph ProofsPGHist ProofsPGData ProofsLaplacian ProofsPGMain ProofsPGCex ProofsCost.
Import ListNotations.
Local Open Scope R_scope.

(** An edge term, row by row. *)
Lemma edge_cost_form r d m Xi Xj :
  edge_cost r d m Xi Xj =
  rsum r (fun a => rsum (S d) (fun c => omg d m c * sq (rsum (S d) (fun b => Xi a b * hom d m b c) - Xj a c))).
Proof.
  unfold edge_cost. symmetry.
  rewrite (rsum_ext r _ (fun a => mweight m * mkappa m * rsum d (fun c => sq (rsum d (fun b => Xi a b * mR m b c) - Xj a c)) +
      mweight m * mtau m * sq (Xj a d - Xi a d - rsum d (fun b => Xi a b * mt m b 0%nat)))).
  - rewrite rsum_add, !rsum_scal. ring.
  - intros a Ha. rewrite rsum_S. f_equal.
    + rewrite <- rsum_scal. apply rsum_ext. intros c Hc. unfold omg. destruct (Nat.ltb_spec c d); [|lia].
      rewrite rsum_S, (hom_val d m d c) by lia. rewrite Nat.ltb_irrefl. destruct (Nat.eqb_spec c d); [lia|].
      rewrite Rmult_0_r, Rplus_0_r. do 2 f_equal. f_equal. apply rsum_ext. intros b Hb.
      rewrite hom_val by lia. destruct (Nat.ltb_spec b d); [|lia]. destruct (Nat.ltb_spec c d); [reflexivity|lia].
    + unfold omg. rewrite Nat.ltb_irrefl. rewrite rsum_S, (hom_val d m d d), Nat.ltb_irrefl, Nat.eqb_refl by lia.
      rewrite (rsum_ext d (fun b => Xi a b * hom d m b d) (fun b => Xi a b * mt m b 0%nat)).
      2:{ intros b Hb. rewrite hom_val by lia. destruct (Nat.ltb_spec b d); [|lia]. rewrite Nat.ltb_irrefl. reflexivity. }
      unfold sq. ring.
Qed.

Lemma prior_cost_form r d P X :
  prior_cost r d P X = rsum r (fun a => rsum (S d) (fun c => pr_omg d c * sq (X a c - P a c))).
Proof.
  unfold prior_cost. symmetry.
  rewrite (rsum_ext r _ (fun a => 10000 * rsum d (fun c => sq (X a c - P a c)) + 100 * sq (X a d - P a d))).
  - rewrite rsum_add, !rsum_scal. reflexivity.
  - intros a Ha. rewrite rsum_S. f_equal.
    + rewrite <- rsum_scal. apply rsum_ext. intros c Hc. unfold pr_omg. destruct (Nat.ltb_spec c d); [reflexivity|lia].
    + unfold pr_omg. rewrite Nat.ltb_irrefl. reflexivity.
Qed.

Lemma poseid_find p (l : list (PoseID * Mx R)) : msorted pose_ltb l ->
  match find (fun kv => poseid_eqb (fst kv) p) l with Some (_, Z) => Some Z | None => None end = mfind pose_ltb p l.
Proof.
  intros HS. destruct (find _ l) as [[q Z]|] eqn:E.
  - apply find_some in E. destruct E as [Hin He]. cbn in He.
    assert (q = p) as -> by (destruct q, p; unfold poseid_eqb in He; cbn in He;
      apply andb_prop in He; destruct He as [A B]; apply N.eqb_eq in A, B; congruence).
    symmetry. apply (mfind_In _ pose_total); auto.
  - destruct (mfind pose_ltb p l) as [Z|] eqn:M; auto.
    apply (mfind_In _ pose_total) in M; auto. pose proof (find_none _ _ E _ M) as F. cbn in F.
    exfalso. destruct p; unfold poseid_eqb in F; cbn in F. rewrite !N.eqb_refl in F. discriminate.
Qed.

Lemma remote_used (g : PoseGraph R) m : pg_wf g -> remote_pose g m = used g m.
Proof.
  intros W. unfold remote_pose, used, active, act, remote. rewrite (poseid_find _ _ (wf_nposes_sorted _ W)).
  destruct (isNeighborActive g _) as [b| |]; [destruct b|..]; reflexivity.
Qed.

Lemma qused_used (g : PoseGraph R) m : pg_wf g -> needed_known g -> In m (pg_shared g) -> qused g m = some (used g m).
Proof.
  intros W K Hm. unfold qused, used. destruct (active g m) eqn:A; cbn [orb].
  - unfold active, act in A. destruct (isNeighborActive g _) as [b| |] eqn:E; try discriminate. subst b.
    destruct (K m Hm E) as (X & HX). unfold remote. rewrite HX. reflexivity.
  - destruct (pg_useinact g); reflexivity.
Qed.

(** Value of the quadratic cost at the rows of [X]. *)
Definition fval (g : PoseGraph R) (X : nat -> nat -> R) : R :=
  rsum (pg_r g) (fun a => / 2 * Qform g (X a) (X a) + Glin g (X a) a).

(** Term by term. *)
Lemma priv_term r d m (X : nat -> nat -> R) :
  rsum r (fun a => rsum (S d) (fun c => omg d m c * rho d m (X a) c * rho d m (X a) c)) =
  edge_cost r d m (pose_blk d X (N.to_nat (mp1 m))) (pose_blk d X (N.to_nat (mp2 m))).
Proof.
  rewrite edge_cost_form. apply rsum_ext. intros a _. apply rsum_ext. intros c _.
  unfold rho, pose_blk, sq. ring.
Qed.

Definition sh_const (g : PoseGraph R) m (Z : Mx R) (a : nat) : R :=
  let d := pg_d g in
  if is_out g m then / 2 * rsum (S d) (fun c => omg d m c * sq (Z a c))
  else / 2 * rsum (S d) (fun c => omg d m c * sq (rsum (S d) (fun b => Z a b * hom d m b c))).

Lemma own_idx_val (g : PoseGraph R) m : pg_wf g -> In m (pg_shared g) ->
  own_idx g m = if (mr1 m =? pg_id g)%N then mp1 m else mp2 m.
Proof.
  intros W Hm. pose proof (wf_shared _ W _ Hm) as Hs. unfold own_idx, own_pose.
  destruct (mr1 m =? pg_id g)%N; reflexivity.
Qed.

Lemma shared_term (g : PoseGraph R) m Z X : pg_wf g -> In m (pg_shared g) ->
  rsum (pg_r g) (fun a => / 2 * sh_form g m (X a) (X a) + sh_lin g m Z (X a) a + sh_const g m Z a) =
  / 2 * (if (mr1 m =? pg_id g)%N
         then edge_cost (pg_r g) (pg_d g) m (pose_blk (pg_d g) X (N.to_nat (mp1 m))) Z
         else edge_cost (pg_r g) (pg_d g) m Z (pose_blk (pg_d g) X (N.to_nat (mp2 m)))).
Proof.
  intros W Hm. unfold sh_form, sh_lin, sh_const. cbn zeta. rewrite (own_idx_val g m W Hm). unfold is_out.
  destruct (mr1 m =? pg_id g)%N; rewrite edge_cost_form, <- rsum_scal; apply rsum_ext; intros a _;
  rewrite <- !rsum_scal, <- rsum_opp, <- !rsum_add; apply rsum_ext; intros c _; unfold outx, pose_blk, sq.
  - set (u := rsum _ _). field.
  - set (u := rsum _ _). field.
Qed.

Definition pr_const d (P : Mx R) (a : nat) : R := / 2 * rsum (S d) (fun c => pr_omg d c * sq (P a c)).

Lemma prior_term r d i (P : Mx R) X :
  rsum r (fun a => / 2 * pr_form d i (X a) (X a) + pr_lin d i P (X a) a + pr_const d P a) =
  / 2 * prior_cost r d P (pose_blk d X i).
Proof.
  rewrite prior_cost_form, <- rsum_scal. apply rsum_ext. intros a _.
  unfold pr_form, pr_lin, pr_const. rewrite <- !rsum_scal, <- rsum_opp, <- !rsum_add.
  apply rsum_ext. intros c _. unfold pose_blk, sq. field.
Qed.

Definition kconst (g : PoseGraph R) : R :=
  nsumL (fun m => match used g m with Some Z => rsum (pg_r g) (fun a => sh_const g m Z a) | None => 0 end) (pg_shared g) +
  nsumL (fun kv : N * Mx R => rsum (pg_r g) (fun a => pr_const (pg_d g) (snd kv) a)) (pg_priors g).

Lemma rsumL_swap {A} n (f : nat -> A -> R) l :
  rsum n (fun a => nsumL (f a) l) = nsumL (fun x => rsum n (fun a => f a x)) l.
Proof.
  induction l as [|x l IH].
  - rewrite rsumL_nil. apply rsum_zero'. intros. apply rsumL_nil.
  - rewrite rsumL_cons, <- IH, <- rsum_add. apply rsum_ext. intros a _. apply rsumL_cons.
Qed.

Theorem cost_form (g : PoseGraph R) X : pg_wf g -> needed_known g -> local_cost g X = fval g X + kconst g.
Proof.
  intros W K. unfold fval, Qform, Glin, kconst, local_cost.
  set (r := pg_r g). set (d := pg_d g).
  rewrite (rsum_ext r _ (fun a =>
     nsumL (fun m => / 2 * rsum (S d) (fun c => omg d m c * rho d m (X a) c * rho d m (X a) c)) (pg_odom g ++ pg_priv g) +
     (nsumL (fun m => match used g m with Some Z => / 2 * sh_form g m (X a) (X a) + sh_lin g m Z (X a) a | None => 0 end) (pg_shared g) +
      nsumL (fun kv : N * Mx R => / 2 * pr_form d (N.to_nat (fst kv)) (X a) (X a) + pr_lin d (N.to_nat (fst kv)) (snd kv) (X a) a) (pg_priors g)))).
  2:{ intros a _. unfold priv_form. fold d. rewrite !Rmult_plus_distr_l, <- !rsumL_scal.
      rewrite rsumL_add.
      rewrite (rsumL_ext (fun m => match used g m with Some Z => / 2 * sh_form g m (X a) (X a) + sh_lin g m Z (X a) a | None => 0 end)
         (fun m => / 2 * (if qused g m then sh_form g m (X a) (X a) else 0) +
                   match used g m with Some Z => sh_lin g m Z (X a) a | None => 0 end)).
      2:{ intros m Hm. rewrite (qused_used g m W K Hm). destruct (used g m); cbn [some]; lra. }
      rewrite rsumL_add. lra. }
  rewrite !rsum_add, !rsumL_swap.
  assert (E1 : private_cost g X * / 2 = nsumL (fun m => rsum r (fun a => / 2 * rsum (S d) (fun c => omg d m c * rho d m (X a) c * rho d m (X a) c))) (pg_odom g ++ pg_priv g)).
  { unfold private_cost. rewrite Rmult_comm, <- rsumL_scal. apply rsumL_ext. intros m _. fold r d.
    rewrite <- priv_term, rsum_scal. reflexivity. }
  assert (E2 : shared_cost g X * / 2 =
     nsumL (fun m => rsum r (fun a => match used g m with Some Z => / 2 * sh_form g m (X a) (X a) + sh_lin g m Z (X a) a | None => 0 end)) (pg_shared g) +
     nsumL (fun m => match used g m with Some Z => rsum r (fun a => sh_const g m Z a) | None => 0 end) (pg_shared g)).
  { unfold shared_cost. rewrite Rmult_comm, <- rsumL_scal, <- rsumL_add. apply rsumL_ext. intros m Hm. fold r d.
    rewrite (remote_used g m W). destruct (used g m) as [Z|].
    - unfold r, d. rewrite <- (shared_term g m Z X W Hm). rewrite rsum_add. reflexivity.
    - rewrite rsum_zero' by auto. lra. }
  assert (E3 : priors_cost g X * / 2 =
     nsumL (fun kv : N * Mx R => rsum r (fun a => / 2 * pr_form d (N.to_nat (fst kv)) (X a) (X a) + pr_lin d (N.to_nat (fst kv)) (snd kv) (X a) a)) (pg_priors g) +
     nsumL (fun kv : N * Mx R => rsum r (fun a => pr_const d (snd kv) a)) (pg_priors g)).
  { unfold priors_cost. rewrite Rmult_comm, <- rsumL_scal, <- rsumL_add. apply rsumL_ext. intros kv _. fold r d.
    rewrite <- prior_term, rsum_add. reflexivity. }
  lra.
Qed.

Definition zeroX : nat -> nat -> R := fun _ _ => 0.

Lemma rho_0 d m c : rho d m (fun _ => 0) c = 0.
Proof. unfold rho. rewrite rsum_zero'; intros; lra. Qed.

Lemma outx_0 d m i c : outx d m i (fun _ => 0) c = 0.
Proof. unfold outx. apply rsum_zero'. intros; lra. Qed.

Lemma fval_0 (g : PoseGraph R) : fval g zeroX = 0.
Proof.
  unfold fval, zeroX. apply rsum_zero'. intros a _. unfold Qform, Glin, priv_form.
  rewrite !rsumL_zero; [lra|..].
  - intros kv _. unfold pr_lin. rewrite rsum_zero'; intros; lra.
  - intros m _. destruct (used g m); auto. unfold sh_lin. cbn zeta. destruct (is_out g m).
    + rewrite rsum_zero'; [lra|]. intros. rewrite outx_0. lra.
    + rewrite rsum_zero'; [lra|]. intros. lra.
  - intros kv _. unfold pr_form. rewrite rsum_zero'; intros; lra.
  - intros m _. destruct (qused g m); auto. unfold sh_form. cbn zeta. destruct (is_out g m);
      rewrite rsum_zero'; auto; intros; rewrite ?outx_0; lra.
  - intros m _. rewrite rsum_zero'; auto. intros. rewrite rho_0. lra.
Qed.

Corollary fval_cost (g : PoseGraph R) X : pg_wf g -> needed_known g -> fval g X = local_cost g X - local_cost g zeroX.
Proof. intros W K. rewrite !cost_form by auto. rewrite fval_0. lra. Qed.

(** ** The problem's functions on a coherent graph *)
Lemma needed_of_G (g : PoseGraph R) G : pg_wf g -> buildG g = Ok (Some G) -> needed_known g /\ G = Gval g.
Proof.
  intros W E. rewrite (buildG_spec g W) in E.
  destruct (existsb (missing g) (pg_shared g)) eqn:M; [discriminate|]. split.
  - apply (missing_iff g W); auto.
  - inversion E; reflexivity.
Qed.

Lemma qp_data_spec (g : PoseGraph R) g' Q G : pg_wf g -> coh g -> qp_data g = Ok (g', Q, G) ->
  pg_wf g' /\ coh g' /\ core_eq g g' /\ Qfull g = Ok Q /\ G = Gval g /\ needed_known g.
Proof.
  intros W K E. unfold qp_data in E. apply bind_Ok in E. destruct E as ([g1 Q1] & E1 & E).
  apply bind_Ok in E. destruct E as ([g2 G2] & E2 & E). inversion E; subst.
  destruct (quadratic_coh _ _ _ W K E1) as (K1 & W1 & _ & F).
  destruct (linear_coh _ _ _ W1 K1 E2) as (K2 & W2 & _ & FG).
  pose proof (quadratic_core _ _ _ E1) as C1. pose proof (linear_core _ _ _ E2) as C2.
  rewrite (buildG_ext _ _ C1 W W1) in FG. destruct (needed_of_G g G W FG) as [NK EG].
  split; [auto|]. split; [auto|]. split; [eapply core_trans; eauto|]. auto.
Qed.

(** Bilinear form of a matrix. *)
Definition bil (n : nat) (Q : nat -> nat -> R) (x y : nat -> R) : R :=
  rsum n (fun i => rsum n (fun j => x i * Q i j * y j)).

Lemma bil_add_l n Q x x' y : bil n Q (fun i => x i + x' i) y = bil n Q x y + bil n Q x' y.
Proof.
  unfold bil. rewrite <- rsum_add. apply rsum_ext. intros i _. rewrite <- rsum_add. apply rsum_ext. intros j _. ring.
Qed.
Lemma bil_scal_l n Q t x y : bil n Q (fun i => t * x i) y = t * bil n Q x y.
Proof.
  unfold bil. rewrite <- rsum_scal. apply rsum_ext. intros i _. rewrite <- rsum_scal. apply rsum_ext. intros j _. ring.
Qed.

Lemma mul_dot_bil n Q x y : rsum n (fun j => rsum n (fun i => x i * Q i j) * y j) = bil n Q x y.
Proof.
  unfold bil. rewrite rsum_swap. apply rsum_ext. intros j _. rewrite <- rsum_scal_r. reflexivity.
Qed.

Lemma Qfull_bil g Q x y : pg_wf g -> Qfull g = Ok Q -> bil (mrows Q) Q x y = Qform g x y.
Proof.
  intros W E. destruct (Qfull_form g Q x y W E) as [A B]. rewrite A in B. exact B.
Qed.

Lemma bil_sym g Q x y : pg_wf g -> Qfull g = Ok Q -> bil (mrows Q) Q x y = bil (mrows Q) Q y x.
Proof. intros W E. rewrite !(Qfull_bil g Q) by auto. apply Qform_sym. Qed.

Lemma Gval_size (g : PoseGraph R) : mrows (Gval g) = pg_r g /\ mcols (Gval g) = (S (pg_d g) * N.to_nat (pg_n g))%nat.
Proof.
  unfold Gval. rewrite fold_prior_rows, fold_use_rows, fold_prior_cols, fold_use_cols. split; reflexivity.
Qed.

(** What [qp_f] computes from the stored matrices. *)
Lemma qp_f_bil g X g' v : pg_wf g -> coh g -> qp_f g X = Ok (g', v) ->
  exists Q, qp_data g = Ok (g', Q, Gval g) /\ Qfull g = Ok Q /\ needed_known g /\
    mrows X = pg_r g /\ mcols X = (S (pg_d g) * N.to_nat (pg_n g))%nat /\
    mrows Q = (S (pg_d g) * N.to_nat (pg_n g))%nat /\ mcols Q = mrows Q /\
    v = rsum (pg_r g) (fun a => / 2 * bil (mrows Q) Q (X a) (X a) + rsum (mrows Q) (fun j => X a j * Gval g a j)).
Proof.
  intros W K E. unfold qp_f in E. apply check_Ok in E. destruct E as [H1 E]. apply check_Ok in E. destruct E as [H2 E].
  apply Nat.eqb_eq in H1, H2.
  apply bind_Ok in E. destruct E as ([[g1 Q] G] & ED & E). apply require_Ok in E. destruct E as [HR E].
  inversion E; subst g1 v. clear E.
  destruct (qp_data_spec _ _ _ _ W K ED) as (W' & K' & C & EQ & -> & NK).
  apply andb_prop in HR. destruct HR as [HR _]. apply andb_prop in HR. destruct HR as [HM _].
  unfold can_mul in HM. apply Nat.eqb_eq in HM.
  destruct (Qfull_form g Q (fun _ => 0) (fun _ => 0) W EQ) as [SQ _].
  exists Q. repeat (split; [auto; congruence|]).
  assert (EC : mcols X = mrows Q) by congruence.
  rewrite <- H1, rsum_add, rsum_scal. f_equal.
  - replace (1 / 2) with (/ 2) by lra.
    numr. f_equal. unfold mdot. cbn [mmul mrows mcols mat]. apply rsum_ext. intros a _.
    rewrite SQ, EC. apply mul_dot_bil.
  - unfold mdot. apply rsum_ext. intros a _. rewrite EC. reflexivity.
Qed.

Lemma qp_f_val g X g' v : pg_wf g -> coh g -> used_ok g -> qp_f g X = Ok (g', v) ->
  v = fval g X /\ needed_known g.
Proof.
  intros W K HN E. destruct (qp_f_bil _ _ _ _ W K E) as (Q & ED & EQ & NK & H1 & H2 & HQ & SQ & ->).
  split; auto. unfold fval. apply rsum_ext. intros a Ha. rewrite (Qfull_bil g Q) by auto. f_equal.
  rewrite HQ. apply Gval_form; auto.
Qed.

Lemma clean_facts id r d os g : clean id r d os g -> pg_wf g /\ coh g /\ reach id r d os g.
Proof.
  intros (g0 & N0 & F & D & Rn). pose proof (newPoseGraph_wf _ _ _ _ N0) as W0.
  destruct (run_coh os g0 g false F W0) as [C W]; auto.
  - intros _. unfold newPoseGraph, check in N0. destruct (Nat.leb d r); inversion N0; subst.
    split; simpl; discriminate.
  - split; auto. split; [auto|]. split; auto. rewrite N0. exact Rn.
Qed.

Theorem cost_identity id r d os g X g' v : clean id r d os g -> nposes_ok g ->
  qp_f g X = Ok (g', v) -> v = local_cost g X - local_cost g (fun _ _ => 0).
Proof.
  intros C HN E. destruct (clean_facts _ _ _ _ _ C) as (W & K & _).
  destruct (qp_f_val _ _ _ _ W K (nposes_used g W HN) E) as [-> NK]. apply fval_cost; auto.
Qed.

(** The value is defined whenever the data are available. *)
Lemma data_defined (g : PoseGraph R) : pg_wf g -> coh g -> needed_known g -> no_self g -> last_private g ->
  exists g' Q, qp_data g = Ok (g', Q, Gval g) /\ Qfull g = Ok Q /\ mrows Q = (S (pg_d g) * N.to_nat (pg_n g))%nat.
Proof.
  intros W K NK NS LP.
  assert (MI : existsb (missing g) (pg_shared g) = false) by (apply (missing_iff g W); auto).
  destruct (buildQ_shape g W NS LP) as (o & EB & Sh).
  assert (exists Q, o = Some Q) as (Q & ->).
  { destruct o as [Q|]; [eauto|]. apply (buildQ_none g W) in EB. congruence. }
  destruct (Sh Q eq_refl) as [SR SC]. pose proof (proj1 (buildQ_full g W Q EB)) as EF || pose proof (buildQ_full g W Q EB) as EF.
  assert (EQ : exists g1, quadraticMatrix g = Ok (g1, Q)).
  { unfold quadraticMatrix. destruct (pg_Q g) as [Q1|] eqn:PQ.
    - cbn. rewrite PQ. pose proof (coh_Q _ K _ PQ). assert (Q1 = Q) by congruence. subst. eauto.
    - unfold constructQ. rewrite EB. cbn. eauto. }
  destruct EQ as (g1 & EQ). destruct (quadratic_coh _ _ _ W K EQ) as (K1 & W1 & _ & _).
  pose proof (quadratic_core _ _ _ EQ) as C1.
  assert (BG : buildG g1 = Ok (Some (Gval g))).
  { rewrite (buildG_ext _ _ C1 W W1), (buildG_spec g W), MI. reflexivity. }
  assert (EG : exists g2, linearMatrix g1 = Ok (g2, Gval g)).
  { unfold linearMatrix. destruct (pg_G g1) as [G1|] eqn:PG.
    - cbn. rewrite PG. pose proof (coh_G _ K1 _ PG). assert (G1 = Gval g) by congruence. subst. eauto.
    - unfold constructG. rewrite BG. cbn. eauto. }
  destruct EG as (g2 & EG). exists g2, Q. unfold qp_data. rewrite EQ. cbn. rewrite EG. cbn. auto.
Qed.

Lemma f_defined (g : PoseGraph R) X : pg_wf g -> coh g -> needed_known g -> no_self g -> last_private g ->
  mrows X = pg_r g -> mcols X = (S (pg_d g) * N.to_nat (pg_n g))%nat ->
  exists g' v, qp_f g X = Ok (g', v).
Proof.
  intros W K NK NS LP HR HC. destruct (data_defined g W K NK NS LP) as (g' & Q & ED & EQ & SQ).
  destruct (Qfull_form g Q (fun _ => 0) (fun _ => 0) W EQ) as [SC _]. destruct (Gval_size g) as [G1 G2].
  unfold qp_f, check. rewrite HR, HC, !Nat.eqb_refl, ED. cbn [bind]. unfold require, can_mul, same_size.
  cbn [mmul mrows mcols]. rewrite SC, SQ, HC, HR, G1, G2, !Nat.eqb_refl. cbn. eauto.
Qed.

Theorem cost_defined id r d os g X : clean id r d os g -> needed_known g -> no_self g -> last_private g ->
  mrows X = r -> mcols X = (S d * N.to_nat (pg_n g))%nat -> exists g' v, qp_f g X = Ok (g', v).
Proof.
  intros C. destruct (clean_facts _ _ _ _ _ C) as (W & K & RH).
  destruct (reach_dims _ _ _ _ _ RH) as (<- & <- & _). intros. apply f_defined; auto.
Qed.
