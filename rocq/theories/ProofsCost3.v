(** Gradient, Hessian, definiteness, gauge and lifting. *)
From Coq Require Import List NArith ZArith Arith Bool Lia Reals Lra.
From Verif Require Import Base SMap Num RSum ModelTypes ModelPoseGraph ModelProblem SpecPoseGraph SpecPGHist SpecCost
  ProofsPoseGraph ProofsPGHist ProofsPGData ProofsLaplacian ProofsPGMain ProofsPGCex ProofsCost ProofsCost2.
Import ListNotations.
Local Open Scope R_scope.
Implicit Types (g : PoseGraph R) (m : Meas R).

(** ** C11 *)
Lemma quad_expand g Q x v t : pg_wf g -> Qfull g = Ok Q -> let n := mrows Q in
  bil n Q (fun i => x i + t * v i) (fun i => x i + t * v i) =
  bil n Q x x + t * (2 * bil n Q x v) + t * t * bil n Q v v.
Proof.
  intros W E. cbn zeta.
  rewrite bil_add_l, bil_scal_l.
  rewrite (bil_sym g Q x _ W E), (bil_sym g Q v _ W E), !bil_add_l, !bil_scal_l.
  rewrite (bil_sym g Q v x W E). ring.
Qed.

Lemma grad_hess g X V t g1 v g2 D g3 Hs : pg_wf g -> coh g ->
  qp_f g X = Ok (g1, v) -> qp_grad g X = Ok (g2, D) -> qp_hess g V = Ok (g3, Hs) -> same_size V X = true ->
  qp_f g (madd X (mscal t V)) = Ok (g1, v + t * mdot D V + t * t / 2 * mdot V Hs).
Proof.
  intros W K E1 E2 E3 HS.
  destruct (qp_f_bil _ _ _ _ W K E1) as (Q & ED & EQ & NK & H1 & H2 & HQ & SQ & ->).
  unfold same_size in HS. apply andb_prop in HS. destruct HS as [S1 S2]. apply Nat.eqb_eq in S1, S2.
  destruct (Gval_size g) as [G1 G2].
  unfold qp_f, check. cbn [madd mrows mcols]. rewrite H1, H2, !Nat.eqb_refl, ED. cbn [bind].
  unfold require, can_mul, same_size. cbn [madd mmul mrows mcols]. rewrite SQ, HQ, H2, H1, G1, G2, !Nat.eqb_refl. cbn [andb].
  do 2 f_equal.
  unfold qp_grad in E2. rewrite ED in E2. cbn [bind] in E2. apply require_Ok in E2. destruct E2 as [_ E2].
  inversion E2; subst D g2. clear E2.
  unfold qp_hess in E3. apply bind_Ok in E3. destruct E3 as ([g4 Q'] & EQ' & E3).
  destruct (quadratic_coh _ _ _ W K EQ') as (_ & _ & _ & F). assert (Q' = Q) by congruence. subst Q'.
  apply require_Ok in E3. destruct E3 as [_ E3]. inversion E3; subst Hs g4. clear E3.
  unfold mdot. cbn [madd mmul mscal mrows mcols mat]. rewrite S1, H1, S2, H2, SQ, HQ.
  set (N := (S (pg_d g) * N.to_nat (pg_n g))%nat) in *. set (r := pg_r g).
  unfold nlit. numr. rewrite <- !rsum_scal, <- !rsum_add. apply rsum_ext. intros a _.
  rewrite mul_dot_bil.
  pose proof (quad_expand g Q (X a) (V a) t W EQ) as QE. cbn zeta in QE. rewrite HQ in QE. rewrite QE.
  rewrite (rsum_ext N (fun j => (X a j + t * V a j) * Gval g a j) (fun j => X a j * Gval g a j + t * (Gval g a j * V a j)))
    by (intros; ring).
  rewrite (rsum_ext N (fun j => (rsum N (fun k => X a k * Q k j) + Gval g a j) * V a j)
    (fun j => rsum N (fun k => X a k * Q k j) * V a j + Gval g a j * V a j)) by (intros; ring).
  rewrite !rsum_add, !rsum_scal, mul_dot_bil.
  rewrite (rsum_ext N (fun j => V a j * rsum N (fun k => V a k * Q k j)) (fun j => rsum N (fun k => V a k * Q k j) * V a j)) by (intros; ring).
  rewrite mul_dot_bil. field.
Qed.

(** ** C12 *)
Definition unit_vec (k i : nat) : R := if Nat.eqb i k then 1 else 0.

Lemma bil_unit n Q p q : (p < n)%nat -> (q < n)%nat -> bil n Q (unit_vec p) (unit_vec q) = Q p q.
Proof.
  intros Hp Hq. unfold bil. rewrite (rsum_single _ p); auto.
  - rewrite (rsum_single _ q); auto.
    + unfold unit_vec. rewrite !Nat.eqb_refl. ring.
    + intros j _ N. unfold unit_vec at 2. destruct (Nat.eqb_spec j q); [lia|ring].
  - intros i _ N. apply rsum_zero'. intros j _. unfold unit_vec at 1. destruct (Nat.eqb_spec i p); [lia|ring].
Qed.

Lemma Q_sym g (Q : Mx R) i j : pg_wf g -> Qfull g = Ok Q -> (i < mrows Q)%nat -> (j < mrows Q)%nat -> Q i j = Q j i.
Proof. intros W E Hi Hj. rewrite <- (bil_unit (mrows Q) Q i j), <- (bil_unit (mrows Q) Q j i) by auto. eapply bil_sym; eauto. Qed.

Lemma omg_nonneg d m c : 0 <= mweight m -> 0 <= mkappa m -> 0 <= mtau m -> 0 <= omg d m c.
Proof. intros. unfold omg. apply Rmult_le_pos; auto. destruct (Nat.ltb c d); auto. Qed.


Lemma sq_term a b : 0 <= a -> 0 <= a * b * b.
Proof. intros. rewrite Rmult_assoc. apply Rmult_le_pos; auto. apply Rle_0_sqr. Qed.

Lemma pr_omg_pos d c : 0 <= pr_omg d c.
Proof. unfold pr_omg. destruct (Nat.ltb c d); lra. Qed.

Lemma Qform_psd (g : PoseGraph R) x : (forall m, In m (measurements g) -> nonneg_meas m) -> 0 <= Qform g x x.
Proof.
  intros HM. unfold Qform, priv_form.
  assert (A : forall ms : list (Meas R), (forall m, In m ms -> nonneg_meas m) ->
     0 <= nsumL (fun m => rsum (S (pg_d g)) (fun c => omg (pg_d g) m c * rho (pg_d g) m x c * rho (pg_d g) m x c)) ms).
  { intros ms Hms. apply rsumL_nonneg. intros m Hm. destruct (Hms m Hm) as (A & B & C).
    apply rsum_nonneg. intros c _. apply sq_term. apply omg_nonneg; auto. }
  assert (B : 0 <= nsumL (fun m => if qused g m then sh_form g m x x else 0) (pg_shared g)).
  { apply rsumL_nonneg. intros m Hm. destruct (HM m) as (A1 & B1 & C1).
    { unfold measurements. rewrite !in_app_iff. auto. }
    destruct (qused g m); [|lra]. unfold sh_form. cbn zeta. destruct (is_out g m); apply rsum_nonneg; intros c _;
      apply sq_term; apply omg_nonneg; auto. }
  assert (C : 0 <= nsumL (fun kv : N * Mx R => pr_form (pg_d g) (N.to_nat (fst kv)) x x) (pg_priors g)).
  { apply rsumL_nonneg. intros kv _. unfold pr_form. apply rsum_nonneg. intros. apply sq_term. apply pr_omg_pos. }
  pose proof (A (pg_odom g ++ pg_priv g)) as A'.
  assert (0 <= nsumL (fun m => rsum (S (pg_d g)) (fun c => omg (pg_d g) m c * rho (pg_d g) m x c * rho (pg_d g) m x c)) (pg_odom g ++ pg_priv g)).
  { apply A'. intros m Hm. apply HM. unfold measurements. rewrite !in_app_iff in *. tauto. }
  lra.
Qed.

(** Triangular systems and the Cholesky factorisation. *)
Lemma solve_lower L : forall n b, (forall i, (i < n)%nat -> L i i <> 0) ->
  (forall i k, (i < k)%nat -> L i k = 0) ->
  exists y, forall i, (i < n)%nat -> rsum n (fun k => L i k * y k) = b i.
Proof.
  intros n b HD HL. induction n as [|n IH]; [exists (fun _ => 0); intros; lia|].
  destruct IH as (y & Hy); [intros; apply HD; lia|].
  exists (fun k => if Nat.eqb k n then (b n - rsum n (fun k => L n k * y k)) / L n n else y k).
  intros i Hi. rewrite rsum_S, Nat.eqb_refl.
  rewrite (rsum_ext n _ (fun k => L i k * y k)).
  2:{ intros k Hk. destruct (Nat.eqb_spec k n); [lia|reflexivity]. }
  destruct (Nat.eq_dec i n) as [->|N].
  - pose proof (HD n ltac:(lia)). field. auto.
  - rewrite (HL i n) by lia. rewrite Hy by lia. lra.
Qed.

Lemma solve_upper L : forall n b, (forall i, (i < n)%nat -> L i i <> 0) ->
  (forall i k, (i < k)%nat -> L i k = 0) ->
  exists z, forall i, (i < n)%nat -> rsum n (fun k => L k i * z k) = b i.
Proof.
  intros n. induction n as [|n IH]; intros b HD HL; [exists (fun _ => 0); intros; lia|].
  destruct (IH (fun i => b i - L n i * (b n / L n n))) as (z & Hz); [intros; apply HD; lia|auto|].
  exists (fun k => if Nat.eqb k n then b n / L n n else z k).
  intros i Hi. rewrite rsum_S, Nat.eqb_refl.
  rewrite (rsum_ext n _ (fun k => L k i * z k)).
  2:{ intros k Hk. destruct (Nat.eqb_spec k n); [lia|reflexivity]. }
  destruct (Nat.eq_dec i n) as [->|N].
  - rewrite rsum_zero'. 2:{ intros k Hk. rewrite HL by lia. ring. }
    pose proof (HD n ltac:(lia)). field. auto.
  - rewrite Hz by lia. lra.
Qed.

Definition pos_def (n : nat) (P : nat -> nat -> R) : Prop :=
  forall x, (exists i, (i < n)%nat /\ x i <> 0) -> 0 < bil n P x x.

Lemma bil_S n P x : bil (S n) P x x =
  bil n P x x + x n * rsum n (fun i => P n i * x i) + x n * rsum n (fun i => P i n * x i) + P n n * (x n * x n).
Proof.
  unfold bil. rewrite rsum_S.
  rewrite (rsum_ext n (fun i => rsum (S n) _) (fun i => rsum n (fun j => x i * P i j * x j) + x n * (P i n * x i))).
  2:{ intros i _. rewrite rsum_S. ring. }
  rewrite rsum_add, rsum_scal, rsum_S.
  rewrite (rsum_ext n (fun j => x n * P n j * x j) (fun j => x n * (P n j * x j))) by (intros; ring).
  rewrite rsum_scal. ring.
Qed.

Lemma bil_ext n P P' x x' y y' : (forall i, (i < n)%nat -> x i = x' i) -> (forall i, (i < n)%nat -> y i = y' i) ->
  (forall i j, (i < n)%nat -> (j < n)%nat -> P i j = P' i j) -> bil n P x y = bil n P' x' y'.
Proof.
  intros A B C. unfold bil. apply rsum_ext. intros i Hi. apply rsum_ext. intros j Hj. rewrite A, B, C; auto.
Qed.

Theorem cholesky n : forall P, (forall i j, (i < n)%nat -> (j < n)%nat -> P i j = P j i) -> pos_def n P ->
  exists L, (forall i k, (i < k)%nat -> L i k = 0) /\ (forall i, (i < n)%nat -> 0 < L i i) /\
    forall i j, (i < n)%nat -> (j < n)%nat -> rsum n (fun k => L i k * L j k) = P i j.
Proof.
  induction n as [|n IH]; intros P HS HP.
  { exists (fun _ _ => 0). split; [auto|]. split; intros; lia. }
  destruct (IH P) as (L & LT & LP & LE).
  { intros; apply HS; lia. }
  { intros x (i & Hi & Hx).
    set (x' := fun k => if Nat.eqb k n then 0 else x k).
    assert (bil (S n) P x' x' = bil n P x x).
    { rewrite bil_S. unfold x' at 3 4 5 6. rewrite Nat.eqb_refl.
      rewrite (bil_ext n P P x' x x' x); auto; try (intros k Hk; unfold x'; destruct (Nat.eqb_spec k n); [lia|auto]).
      unfold x'. rewrite Nat.eqb_refl. ring. }
    rewrite <- H. apply HP. exists i. split; [lia|]. unfold x'. destruct (Nat.eqb_spec i n); [lia|auto]. }
  assert (LN : forall i, (i < n)%nat -> L i i <> 0) by (intros i Hi; pose proof (LP i Hi); lra).
  destruct (solve_lower L n (fun i => P n i) LN LT) as (y & Hy).
  destruct (solve_upper L n y LN LT) as (z & Hz).
  set (yy := rsum n (fun k => y k * y k)).
  assert (POS : 0 < P n n - yy).
  { set (x := fun k => if Nat.eqb k n then 1 else - z k).
    assert (HB : bil (S n) P x x = P n n - yy).
    { rewrite bil_S.
      assert (X0 : x n = 1) by (unfold x; rewrite Nat.eqb_refl; auto).
      assert (X1 : forall k, (k < n)%nat -> x k = - z k) by (intros k Hk; unfold x; destruct (Nat.eqb_spec k n); [lia|auto]).
      rewrite X0.
      assert (ZB : rsum n (fun i => P n i * z i) = yy).
      { rewrite (rsum_ext n (fun i => P n i * z i) (fun i => rsum n (fun k => y k * (L i k * z i)))).
        2:{ intros i Hi. rewrite <- (Hy i Hi), <- rsum_scal_r. apply rsum_ext. intros; ring. }
        rewrite rsum_swap. unfold yy. apply rsum_ext. intros k Hk. rewrite rsum_scal, Hz; auto. }
      assert (ZZ : bil n P x x = yy).
      { unfold bil. rewrite (rsum_ext n _ (fun i => rsum n (fun j => rsum n (fun k => (L i k * z i) * (L j k * z j))))).
        2:{ intros i Hi. apply rsum_ext. intros j Hj. rewrite !X1, <- LE by auto.
            rewrite <- rsum_scal, <- rsum_scal_r. apply rsum_ext. intros; ring. }
        rewrite (rsum_ext n _ (fun i => rsum n (fun k => rsum n (fun j => (L i k * z i) * (L j k * z j))))).
        2:{ intros i Hi. apply rsum_swap. }
        rewrite rsum_swap. unfold yy. apply rsum_ext. intros k Hk.
        rewrite (rsum_ext n _ (fun i => (L i k * z i) * y k)).
        2:{ intros i Hi. rewrite rsum_scal, Hz; auto. }
        rewrite rsum_scal_r, Hz; auto. }
      rewrite ZZ.
      rewrite (rsum_ext n (fun i => P n i * x i) (fun i => - (P n i * z i))).
      2:{ intros i Hi. rewrite X1 by auto. ring. }
      rewrite (rsum_ext n (fun i => P i n * x i) (fun i => - (P n i * z i))).
      2:{ intros i Hi. rewrite X1 by auto. rewrite (HS i n) by lia. ring. }
      rewrite rsum_opp, ZB. ring. }
    rewrite <- HB. apply HP. exists n. split; [lia|]. unfold x. rewrite Nat.eqb_refl. lra. }
  exists (fun i k => if Nat.eqb i n then (if Nat.ltb k n then y k else if Nat.eqb k n then sqrt (P n n - yy) else 0)
                     else if Nat.ltb k n then L i k else 0).
  split; [|split].
  - intros i k Hik. destruct (Nat.eqb_spec i n).
    + destruct (Nat.ltb_spec k n); [lia|]. destruct (Nat.eqb_spec k n); [lia|auto].
    + destruct (Nat.ltb_spec k n); auto.
  - intros i Hi. destruct (Nat.eqb_spec i n).
    + subst. rewrite Nat.ltb_irrefl. apply sqrt_lt_R0; auto.
    + destruct (Nat.ltb_spec i n); [auto|lia].
  - intros i j Hi Hj. rewrite rsum_S, Nat.ltb_irrefl, Nat.eqb_refl.
    destruct (Nat.eqb_spec i n), (Nat.eqb_spec j n); subst.
    + rewrite sqrt_sqrt by lra. rewrite (rsum_ext n _ (fun k => y k * y k)). fold yy; ring.
      intros k Hk. destruct (Nat.ltb_spec k n); [auto|lia].
    + rewrite (rsum_ext n _ (fun k => L j k * y k)). rewrite Hy by lia. ring.
      intros k Hk. destruct (Nat.ltb_spec k n); [ring|lia].
    + rewrite (rsum_ext n _ (fun k => L i k * y k)). rewrite Hy by lia. rewrite (HS i n) by lia. ring.
      intros k Hk. destruct (Nat.ltb_spec k n); [ring|lia].
    + rewrite (rsum_ext n _ (fun k => L i k * L j k)). rewrite LE by lia. ring.
      intros k Hk. destruct (Nat.ltb_spec k n); [ring|lia].
Qed.

Lemma precon_bil Q x : bil (mrows Q) (precon_matrix Q) x x = bil (mrows Q) Q x x + / 10 * rsum (mrows Q) (fun i => x i * x i).
Proof.
  unfold bil. rewrite <- rsum_scal, <- rsum_add. apply rsum_ext. intros i Hi.
  rewrite (rsum_ext (mrows Q) (fun j => x i * precon_matrix Q i j * x j)
     (fun j => x i * Q i j * x j + (if Nat.eqb j i then / 10 * (x j * x j) else 0))).
  - rewrite rsum_add, rsum_delta by auto. reflexivity.
  - intros j Hj. cbn [precon_matrix mat]. rewrite (Nat.eqb_sym i j). destruct (Nat.eqb_spec j i); subst; unfold nlit; numr; field.
Qed.

Lemma precon_pd (g : PoseGraph R) Q : pg_wf g -> Qfull g = Ok Q -> (forall m, In m (measurements g) -> nonneg_meas m) ->
  pos_def (mrows Q) (precon_matrix Q).
Proof.
  intros W E HM x (i & Hi & Hx). rewrite precon_bil, (Qfull_bil g Q) by auto.
  pose proof (Qform_psd g x HM).
  assert (0 < rsum (mrows Q) (fun i => x i * x i)).
  { apply Rlt_le_trans with (x i * x i).
    - destruct (Rtotal_order (x i) 0) as [A|[A|A]]; [nra|lra|nra].
    - apply (rsum_term_le (mrows Q) (fun i => x i * x i) i); auto. intros. apply Rle_0_sqr. }
  lra.
Qed.
