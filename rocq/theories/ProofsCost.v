(** The quadratic form of Q and G. *)
From Coq Require Import List NArith ZArith Arith Bool Lia Reals Lra.
From Verif Require Import Base SMap Num RSum ModelTypes ModelPoseGraph ModelProblem SpecPoseGraph SpecPGHist SpecCost
  ProofsPoseGraph ProofsPGHist ProofsPGData ProofsLaplacian ProofsPGMain ProofsPGCex.
Import ListNotations.
Local Open Scope R_scope.

Lemma rsum_single n e f : (e < n)%nat -> (forall i, (i < n)%nat -> i <> e -> f i = 0) -> rsum n f = f e.
Proof.
  intros He H. rewrite <- (rsum_delta n e f He). apply rsum_ext. intros i Hi.
  destruct (Nat.eqb_spec i e); auto.
Qed.

Lemma rsumL_nth {A} (f : A -> R) l dflt : nsumL f l = rsum (length l) (fun e => f (nth e l dflt)).
Proof.
  induction l as [|a l IH] using rev_ind; [reflexivity|].
  rewrite rsumL_app, rsumL_cons, rsumL_nil, app_length. simpl. rewrite Nat.add_1_r, rsum_S, IH.
  rewrite app_nth2, Nat.sub_diag by lia. simpl. rewrite Rplus_0_r. f_equal.
  apply rsum_ext. intros i Hi. rewrite app_nth1 by lia. reflexivity.
Qed.

Lemma enum_sum {A B} (f : B -> R) (g : nat -> A -> list B) l dflt : forall s,
  nsumL f (enum s g l) = rsum (length l) (fun e => nsumL f (g (s + e)%nat (nth e l dflt))).
Proof.
  induction l as [|a l IH]; intros s; [reflexivity|].
  cbn [enum length]. rewrite rsumL_app, IH.
  change (S (length l)) with (1 + length l)%nat. rewrite rsum_plus. rewrite rsum_S, rsum_0, Nat.add_0_r.
  cbn [nth]. rewrite Rplus_0_l. f_equal. apply rsum_ext. intros i Hi.
  cbn [plus nth]. f_equal. f_equal. lia.
Qed.

(** [hom] of the model restricted to what is used below. *)
Definition omg (d : nat) (m : Meas R) (c : nat) : R :=
  mweight m * (if Nat.ltb c d then mkappa m else mtau m).

Lemma hom_val d m b c : (c <= d)%nat -> (b <= d)%nat ->
  hom d m b c = if Nat.ltb b d then (if Nat.ltb c d then mR m b c else mt m b 0%nat)
                else if Nat.eqb c d then 1 else 0.
Proof. intros. reflexivity. Qed.

(** Sum of a function over the incidence entries of one measurement. *)
Lemma incidence_sum d k m (F : nat -> nat -> R) :
  nsumL (fun t => match t with (i, j, v) => F i j * v end) (incidence_entries d k m) =
  rsum (S d) (fun c => F (N.to_nat (mp2 m) * S d + c)%nat (k * S d + c)%nat -
     rsum (S d) (fun b => F (N.to_nat (mp1 m) * S d + b)%nat (k * S d + c)%nat * hom d m b c)).
Proof.
  unfold incidence_entries. unfold trip. rewrite !rsumL_app, rsumL_flat_map.
  set (i := N.to_nat (mp1 m)). set (j := N.to_nat (mp2 m)).
  match goal with |- ?X + _ = _ => assert (E1 : X = rsum d (fun c => rsum d (fun b => F (i * S d + b)%nat (k * S d + c)%nat * - mR m b c))) end.
  { rewrite rsumL_seq0. apply rsum_ext. intros c _. rewrite rsumL_map, rsumL_seq0. reflexivity. }
  rewrite E1. clear E1.
  rewrite !rsumL_map, rsumL_cons, rsumL_nil, !rsumL_seq0. numr.
  rewrite rsum_sub.
  rewrite (rsum_ext (S d) (fun c => F (j * S d + c)%nat (k * S d + c)%nat * 1)
             (fun c => F (j * S d + c)%nat (k * S d + c)%nat)) by (intros; lra).
  set (U := rsum (S d) (fun c => F (j * S d + c)%nat (k * S d + c)%nat)).
  rewrite (rsum_S d (fun c => rsum (S d) (fun b => F (i * S d + b)%nat (k * S d + c)%nat * hom d m b c))).
  rewrite (rsum_ext d (fun c => rsum (S d) (fun b => F (i * S d + b)%nat (k * S d + c)%nat * hom d m b c))
             (fun c => - rsum d (fun b => F (i * S d + b)%nat (k * S d + c)%nat * - mR m b c))).
  2:{ intros c Hc. rewrite rsum_S, <- rsum_opp, (hom_val d m d c) by lia.
      rewrite Nat.ltb_irrefl. destruct (Nat.eqb_spec c d); [lia|]. rewrite Rmult_0_r, Rplus_0_r.
      apply rsum_ext. intros b Hb. rewrite hom_val by lia.
      destruct (Nat.ltb_spec b d); [|lia]. destruct (Nat.ltb_spec c d); [|lia]. lra. }
  rewrite rsum_opp, rsum_S, (hom_val d m d d), Nat.ltb_irrefl, Nat.eqb_refl by lia.
  rewrite (rsum_ext d (fun b => F (i * S d + b)%nat (k * S d + d)%nat * hom d m b d)
             (fun b => - (F (i * S d + b)%nat (k * S d + d)%nat * - mt m b 0%nat))).
  2:{ intros b Hb. rewrite hom_val by lia. destruct (Nat.ltb_spec b d); [|lia]. rewrite Nat.ltb_irrefl. lra. }
  rewrite rsum_opp. lra.
Qed.

(** Residual of measurement [m] in the row vector [x], component [c]. *)
Definition rho (d : nat) (m : Meas R) (x : nat -> R) (c : nat) : R :=
  x (N.to_nat (mp2 m) * S d + c)%nat - rsum (S d) (fun b => x (N.to_nat (mp1 m) * S d + b)%nat * hom d m b c).

Lemma block_col (d e e' c c' : nat) : (c < S d)%nat -> (c' < S d)%nat ->
  (e * S d + c = e' * S d + c')%nat -> e = e' /\ c = c'.
Proof.
  intros H H' E. assert (e = e').
  { destruct (Nat.lt_trichotomy e e') as [L|[L|L]]; auto; nia. }
  subst. split; auto. lia.
Qed.

Lemma column_sum d ms x e c dflt : (e < length ms)%nat -> (c < S d)%nat ->
  nsumL (fun t => match t with (i, j, v) => (if Nat.eqb j (e * S d + c) then x i else 0) * v end)
        (enum 0 (incidence_entries d) ms) = rho d (nth e ms dflt) x c.
Proof.
  intros He Hc. rewrite (enum_sum _ _ ms dflt).
  rewrite (rsum_single _ e); auto.
  - cbn [plus]. rewrite (incidence_sum d e _ (fun i j => if Nat.eqb j (e * S d + c) then x i else 0)).
    rewrite (rsum_single _ c); auto.
    + rewrite Nat.eqb_refl. reflexivity.
    + intros c' Hc' N. destruct (Nat.eqb_spec (e * S d + c') (e * S d + c)); [lia|].
      rewrite rsum_zero'; [lra|]. intros. lra.
  - intros e' He' N. cbn [plus].
    rewrite (incidence_sum d e' _ (fun i j => if Nat.eqb j (e * S d + c) then x i else 0)).
    apply rsum_zero'. intros c' Hc'.
    destruct (Nat.eqb_spec (e' * S d + c') (e * S d + c)) as [E|_].
    + apply block_col in E; auto. destruct E; congruence.
    + rewrite rsum_zero'; [lra|]. intros. lra.
Qed.

Lemma weight_sum d ms e c dflt : (e < length ms)%nat -> (c < S d)%nat ->
  nsumL (fun p => if Nat.eqb (fst p) (e * S d + c) then snd p else 0) (enum 0 (weight_entries d) ms)
  = omg d (nth e ms dflt) c.
Proof.
  intros He Hc. rewrite (enum_sum _ _ ms dflt).
  assert (W : forall e' m, nsumL (fun p => if Nat.eqb (fst p) (e * S d + c) then snd p else 0) (weight_entries d e' m)
            = rsum (S d) (fun c' => if Nat.eqb (e' * S d + c') (e * S d + c) then omg d m c' else 0)).
  { intros e' m. unfold weight_entries. rewrite rsumL_app, rsumL_map, rsumL_seq0, rsumL_cons, rsumL_nil. cbn [fst snd].
    rewrite rsum_S. unfold omg. rewrite Nat.ltb_irrefl. numr.
    rewrite Rplus_0_r. f_equal. apply rsum_ext. intros i Hi. destruct (Nat.ltb_spec i d); [reflexivity|lia]. }
  rewrite (rsum_single _ e); auto.
  - cbn [plus]. rewrite W, (rsum_single _ c); auto.
    + rewrite Nat.eqb_refl. reflexivity.
    + intros c' Hc' N. destruct (Nat.eqb_spec (e * S d + c') (e * S d + c)); [lia|reflexivity].
  - intros e' He' N. cbn [plus]. rewrite W. apply rsum_zero'. intros c' Hc'.
    destruct (Nat.eqb_spec (e' * S d + c') (e * S d + c)) as [E|_]; auto.
    apply block_col in E; auto. destruct E; congruence.
Qed.

(** Coefficients given by triplets, paired with anything. *)
Lemma spcoef_sum (ts : list (trip R)) rows cols (F : nat -> nat -> R) : in_range rows cols ts = true ->
  rsum rows (fun i => rsum cols (fun j => F i j * spcoef ts i j)) =
  nsumL (fun t => match t with (i, j, v) => F i j * v end) ts.
Proof.
  unfold spcoef. induction ts as [|[[a b] v] ts IH]; intros HR.
  - rewrite rsumL_nil. apply rsum_zero'. intros. apply rsum_zero'. intros. rewrite rsumL_nil. lra.
  - simpl in HR. apply andb_true_iff in HR. destruct HR as [H1 H2]. apply andb_true_iff in H1.
    destruct H1 as [Ha Hb]. apply Nat.ltb_lt in Ha, Hb.
    rewrite rsumL_cons, <- (IH H2).
    rewrite (rsum_ext rows _ (fun i => (if Nat.eqb i a then F i b * v else 0) +
       rsum cols (fun j => F i j * nsumL (fun t => match t with (p, q, w) => if Nat.eqb p i && Nat.eqb q j then w else 0 end) ts))).
    + rewrite rsum_add, (rsum_delta rows a (fun i => F i b * v)) by auto. reflexivity.
    + intros i Hi. rewrite (rsum_ext cols _ (fun j => (if Nat.eqb j b then (if Nat.eqb i a then F i b * v else 0) else 0) +
          F i j * nsumL (fun t => match t with (p, q, w) => if Nat.eqb p i && Nat.eqb q j then w else 0 end) ts)).
      * rewrite rsum_add, (rsum_delta cols b (fun _ => if Nat.eqb i a then F i b * v else 0)) by auto. reflexivity.
      * intros j Hj. rewrite rsumL_cons. rewrite (Nat.eqb_sym a i), (Nat.eqb_sym b j). numr.
        destruct (Nat.eqb_spec i a), (Nat.eqb_spec j b); subst; simpl; lra.
Qed.

(** Bilinear form of the Laplacian. *)
Lemma laplacian_form ms L (x y : nat -> R) : constructConnectionLaplacianSE ms = Ok L ->
  rsum (mrows L) (fun i => rsum (mcols L) (fun j => x i * L i j * y j)) =
  nsumL (fun m => rsum (S (edges_dim ms)) (fun c => omg (edges_dim ms) m c * rho (edges_dim ms) m x c * rho (edges_dim ms) m y c)) ms.
Proof.
  unfold constructConnectionLaplacianSE. cbn zeta. intros E. apply require_Ok in E. destruct E as [HR E].
  apply andb_true_iff in HR. destruct HR as [HR _]. inversion E; subst L. clear E.
  set (d := edges_dim ms) in *. set (D := (S d * N.to_nat (edges_num_poses ms))%nat) in *.
  set (A := enum 0 (incidence_entries d) ms) in *. set (W := enum 0 (weight_entries d) ms).
  cbn [mrows mcols mat].
  set (w := fun k => nsumL (fun e : nat * R => if Nat.eqb (fst e) k then snd e else n0) W).
  set (K := (S d * length ms)%nat).
  transitivity (rsum K (fun k => w k * rsum D (fun i => x i * spcoef A i k) * rsum D (fun j => y j * spcoef A j k))).
  - rewrite (rsum_ext D _ (fun i => rsum K (fun k => (x i * spcoef A i k) * (w k * rsum D (fun j => y j * spcoef A j k))))).
    + rewrite rsum_swap. apply rsum_ext. intros k Hk. rewrite rsum_scal_r. lra.
    + intros i Hi. 
      rewrite (rsum_ext D _ (fun j => rsum K (fun k => x i * spcoef A i k * w k * (y j * spcoef A j k)))).
      * rewrite rsum_swap. apply rsum_ext. intros k Hk. rewrite rsum_scal. lra.
      * intros j Hj. rewrite <- rsum_scal, <- rsum_scal_r.
        apply rsum_ext. intros k Hk. change (x i * (spcoef A i k * w k * spcoef A j k) * y j = x i * spcoef A i k * w k * (y j * spcoef A j k)); ring.
  - unfold K. rewrite Nat.mul_comm, rsum_mult.
    set (m0 := mkMeas 0 0 0 0 (mident 0) (mident 0) 0 0 false 0 : Meas R).
    rewrite (rsumL_nth _ ms m0). apply rsum_ext. intros e He. apply rsum_ext. intros c Hc.
    assert (P : forall z, rsum D (fun i => z i * spcoef A i (e * S d + c)) = rho d (nth e ms m0) z c).
    { intros z. etransitivity; [|exact (column_sum d ms z e c m0 He Hc)].
      etransitivity; [|exact (spcoef_sum A D K (fun i j => if Nat.eqb j (e * S d + c) then z i else 0) HR)].
      apply rsum_ext. intros i Hi.
      rewrite (rsum_ext K _ (fun j => if Nat.eqb j (e * S d + c) then z i * spcoef A i j else 0)).
      - rewrite rsum_delta; [reflexivity|]. unfold K. nia.
      - intros j Hj. destruct (Nat.eqb _ _); lra. }
    rewrite !P. unfold w, W. numr. rewrite (weight_sum d ms e c m0 He Hc). reflexivity.
Qed.

(** Linear functionals of a matrix built by [add_blk]. *)
Lemma add_blk_sum dh n (M B : Mx R) idx (F : nat -> nat -> nat -> R) rows : (0 < dh)%nat -> (N.to_nat idx < n)%nat ->
  rsum n (fun q => rsum rows (fun r => rsum dh (fun c => F q r c * add_blk dh M idx B r (q * dh + c)%nat))) =
  rsum n (fun q => rsum rows (fun r => rsum dh (fun c => F q r c * M r (q * dh + c)%nat))) +
  rsum rows (fun r => rsum dh (fun c => F (N.to_nat idx) r c * B r c)).
Proof.
  intros Hd Hi. set (i0 := N.to_nat idx) in *.
  rewrite (rsum_ext n _ (fun q => rsum rows (fun r => rsum dh (fun c => F q r c * M r (q * dh + c)%nat)) +
     (if Nat.eqb q i0 then rsum rows (fun r => rsum dh (fun c => F q r c * B r c)) else 0))).
  - rewrite rsum_add, (rsum_delta n i0 (fun q => rsum rows (fun r => rsum dh (fun c => F q r c * B r c)))) by auto. reflexivity.
  - intros q Hq. unfold add_blk. cbn [mat]. fold i0.
    destruct (Nat.eqb_spec q i0) as [->|N].
    + rewrite <- rsum_add. apply rsum_ext. intros r Hr. rewrite <- rsum_add. apply rsum_ext. intros c Hc.
      destruct (Nat.leb_spec (i0 * dh) (i0 * dh + c)); [|lia].
      destruct (Nat.ltb_spec (i0 * dh + c) (i0 * dh + dh)); [|lia]. cbn [andb]. numr.
      replace (i0 * dh + c - i0 * dh)%nat with c by lia. lra.
    + rewrite Rplus_0_r. apply rsum_ext. intros r Hr. apply rsum_ext. intros c Hc.
      destruct (Nat.leb_spec (i0 * dh) (q * dh + c)); cbn [andb]; auto.
      destruct (Nat.ltb_spec (q * dh + c) (i0 * dh + dh)); cbn [andb]; auto. exfalso. nia.
Qed.

Lemma diag_sum dh n (M : Mx R) (F : nat -> nat -> R) :
  nsumL (fun t => match t with (i, j, v) => F i j * v end) (diag_triplets dh n M) =
  rsum n (fun q => rsum dh (fun r => rsum dh (fun c => F (q * dh + r)%nat (q * dh + c)%nat * M r (q * dh + c)%nat))).
Proof.
  unfold diag_triplets. rewrite rsumL_flat_map, rsumL_seq0. apply rsum_ext. intros q _.
  rewrite rsumL_flat_map, rsumL_seq0. apply rsum_ext. intros r _.
  rewrite rsumL_map, rsumL_seq0. reflexivity.
Qed.

Lemma rsum_one f : rsum 1 f = f 0%nat.
Proof. rewrite rsum_S, rsum_0. numr. lra. Qed.

(** Block forms. *)
Definition outx (d : nat) (m : Meas R) (i : nat) (x : nat -> R) (c : nat) : R :=
  rsum (S d) (fun b => x (i * S d + b)%nat * hom d m b c).

Definition sh_form g (m : Meas R) (x y : nat -> R) : R :=
  let d := pg_d g in let i := N.to_nat (own_idx g m) in
  if is_out g m then rsum (S d) (fun c => omg d m c * outx d m i x c * outx d m i y c)
  else rsum (S d) (fun c => omg d m c * x (i * S d + c)%nat * y (i * S d + c)%nat).

Definition pr_omg (d c : nat) : R := if Nat.ltb c d then 10000 else 100.
Definition pr_form d (i : nat) (x y : nat -> R) : R :=
  rsum (S d) (fun c => pr_omg d c * x (i * S d + c)%nat * y (i * S d + c)%nat).

Lemma omega_val d k t i j : omega d k t i j = if Nat.eqb i j then (if Nat.ltb i d then k else t) else 0.
Proof. reflexivity. Qed.

Lemma meas_omega_val d m i j : meas_omega d m i j = if Nat.eqb i j then omg d m i else 0.
Proof.
  unfold meas_omega. rewrite omega_val. unfold omg. numr. destruct (Nat.eqb i j); auto. destruct (Nat.ltb i d); auto.
Qed.

(** Right multiplication by a diagonal matrix. *)
Lemma mul_diag (A : Mx R) d m i j : mcols A = S d -> (j < S d)%nat ->
  mmul A (meas_omega d m) i j = A i j * omg d m j.
Proof.
  intros HA Hj. cbn [mmul mat]. rewrite HA. rewrite (rsum_single _ j); auto.
  - rewrite meas_omega_val, Nat.eqb_refl. reflexivity.
  - intros k Hk N. rewrite meas_omega_val. destruct (Nat.eqb_spec k j); [lia|]. numr. lra.
Qed.

Lemma blkQ_form g m M x y : let d := pg_d g in let i := N.to_nat (own_idx g m) in
  rsum (S d) (fun r => rsum (S d) (fun c => (x (i * S d + r)%nat * y (i * S d + c)%nat) * blkQ g m M r c)) = sh_form g m x y.
Proof.
  cbn zeta. unfold sh_form, blkQ. cbn zeta. set (d := pg_d g). set (i := N.to_nat (own_idx g m)).
  destruct (is_out g m).
  - unfold outx.
    rewrite (rsum_ext (S d) (fun c => omg d m c * _ * _)
      (fun k => rsum (S d) (fun r => rsum (S d) (fun c =>
          omg d m k * (x (i * S d + r)%nat * hom d m r k) * (y (i * S d + c)%nat * hom d m c k))))).
    2:{ intros k Hk. rewrite (Rmult_assoc (omg d m k)), <- rsum_scal_r, <- rsum_scal. apply rsum_ext. intros r Hr.
        rewrite <- !rsum_scal. apply rsum_ext. intros c Hc. ring. }
    symmetry. rewrite rsum_swap. apply rsum_ext. intros r Hr.
    rewrite rsum_swap. apply rsum_ext. intros c Hc. symmetry.
    change (mmul (mmul (hom d m) (meas_omega d m)) (mtr (hom d m)) r c)
      with (rsum (S d) (fun k => mmul (hom d m) (meas_omega d m) r k * hom d m c k)).
    rewrite <- rsum_scal. apply rsum_ext. intros k Hk. rewrite mul_diag by auto. ring.
  - apply rsum_ext. intros r Hr. rewrite (rsum_single _ r); auto.
    + rewrite meas_omega_val, Nat.eqb_refl. ring.
    + intros c Hc N. rewrite meas_omega_val. destruct (Nat.eqb_spec r c); [lia|ring].
Qed.

Lemma prior_form d i x y :
  rsum (S d) (fun r => rsum (S d) (fun c => (x (i * S d + r)%nat * y (i * S d + c)%nat) * omega d prior_kappa prior_tau r c)) = pr_form d i x y.
Proof.
  unfold pr_form. apply rsum_ext. intros r Hr. rewrite (rsum_single _ r); auto.
  - rewrite omega_val, Nat.eqb_refl. unfold pr_omg, prior_kappa, prior_tau. numr. destruct (Nat.ltb r d); ring.
  - intros c Hc N. rewrite omega_val. destruct (Nat.eqb_spec r c); [lia|ring].
Qed.

(** Diagonal part of Q as a bilinear form. *)
Lemma Qdiag_form g x y : pg_wf g ->
  let d := pg_d g in
  rsum (N.to_nat (pg_n g)) (fun q => rsum (S d) (fun r => rsum (S d) (fun c =>
     (x (q * S d + r)%nat * y (q * S d + c)%nat) * Qdiag' g r (q * S d + c)%nat))) =
  nsumL (fun m => if qused g m then sh_form g m x y else 0) (pg_shared g) +
  nsumL (fun kv : N * Mx R => pr_form d (N.to_nat (fst kv)) x y) (pg_priors g).
Proof.
  intros W. cbn zeta. set (d := pg_d g). unfold Qdiag'. fold d.
  set (Phi := fun M : Mx R => rsum (N.to_nat (pg_n g)) (fun q => rsum (S d) (fun r => rsum (S d) (fun c =>
     (x (q * S d + r)%nat * y (q * S d + c)%nat) * M r (q * S d + c)%nat)))).
  change (Phi (fold_left (add_prior g (fun _ => omega d prior_kappa prior_tau)) (pg_priors g)
            (fold_left (add_useQ g) (pg_shared g) (mzero (S d) (S d * N.to_nat (pg_n g))))) = 
   nsumL (fun m => if qused g m then sh_form g m x y else 0) (pg_shared g) +
   nsumL (fun kv : N * Mx R => pr_form d (N.to_nat (fst kv)) x y) (pg_priors g)).
  assert (P1 : forall kvs M, (forall kv, In kv kvs -> In kv (pg_priors g)) ->
    Phi (fold_left (add_prior g (fun _ => omega d prior_kappa prior_tau)) kvs M) =
    Phi M + nsumL (fun kv : N * Mx R => pr_form d (N.to_nat (fst kv)) x y) kvs).
  { induction kvs as [|kv kvs IH]; intros M Hin; cbn [fold_left].
    - rewrite rsumL_nil. lra.
    - rewrite IH by (intros; apply Hin; right; auto). rewrite rsumL_cons.
      unfold Phi at 1. unfold add_prior. fold d.
      assert (Hk : (N.to_nat (fst kv) < N.to_nat (pg_n g))%nat).
      { destruct kv as [k X]. destruct (wf_priors _ W k X) as [A _]; [apply Hin; left; auto|]. simpl. lia. }
      rewrite (add_blk_sum (S d) (N.to_nat (pg_n g)) M _ (fst kv)
                 (fun q r c => x (q * S d + r)%nat * y (q * S d + c)%nat) (S d)); auto; try lia.
      rewrite prior_form. fold (Phi M). lra. }
  assert (P2 : forall ms M, (forall m, In m ms -> In m (pg_shared g)) ->
    Phi (fold_left (add_useQ g) ms M) = Phi M + nsumL (fun m => if qused g m then sh_form g m x y else 0) ms).
  { induction ms as [|m ms IH]; intros M Hin; cbn [fold_left].
    - rewrite rsumL_nil. lra.
    - rewrite IH by (intros; apply Hin; right; auto). rewrite rsumL_cons. unfold add_useQ at 1.
      destruct (qused g m); [|lra].
      assert (Hk : (N.to_nat (own_idx g m) < N.to_nat (pg_n g))%nat).
      { pose proof (own_idx_lt g m W (Hin m (or_introl eq_refl))). lia. }
      unfold Phi at 1. fold d.
      rewrite (add_blk_sum (S d) (N.to_nat (pg_n g)) M _ (own_idx g m)
                 (fun q r c => x (q * S d + r)%nat * y (q * S d + c)%nat) (S d)); auto; try lia.
      pose proof (blkQ_form g m M x y) as BF. cbn zeta in BF. fold d in BF. rewrite BF. fold (Phi M). lra. }
  rewrite P1, P2 by auto.
  assert (Z : Phi (mzero (S d) (S d * N.to_nat (pg_n g))) = 0).
  { unfold Phi. apply rsum_zero'. intros. apply rsum_zero'. intros. apply rsum_zero'. intros. cbn [mzero mat]. numr. ring. }
  rewrite Z. lra.
Qed.

(** Bilinear form of the whole quadratic matrix. *)
Definition priv_form g (x y : nat -> R) : R :=
  nsumL (fun m => rsum (S (pg_d g)) (fun c => omg (pg_d g) m c * rho (pg_d g) m x c * rho (pg_d g) m y c)) (pg_odom g ++ pg_priv g).
Definition Qform g (x y : nat -> R) : R :=
  priv_form g x y +
  (nsumL (fun m => if qused g m then sh_form g m x y else 0) (pg_shared g) +
   nsumL (fun kv : N * Mx R => pr_form (pg_d g) (N.to_nat (fst kv)) x y) (pg_priors g)).

Lemma Qfull_form g Q (x y : nat -> R) : pg_wf g -> Qfull g = Ok Q ->
  mcols Q = mrows Q /\
  rsum (mrows Q) (fun i => rsum (mcols Q) (fun j => x i * Q i j * y j)) = Qform g x y.
Proof.
  intros W E. unfold Qfull in E. apply bind_Ok in E. destruct E as (QL & EL & E).
  unfold addDiag in E. cbn zeta in E. apply require_Ok in E. destruct E as [HR E]. inversion E; subst Q. clear E.
  cbn [mrows mcols mat].
  assert (SQ : mcols QL = mrows QL).
  { unfold constructConnectionLaplacianSE in EL. cbn zeta in EL. apply require_Ok in EL. destruct EL as [_ EL].
    inversion EL; reflexivity. }
  split; [exact SQ|].
  rewrite (rsum_ext (mrows QL) _ (fun i => rsum (mcols QL) (fun j => x i * QL i j * y j) +
     rsum (mcols QL) (fun j => (x i * y j) * spcoef (diag_triplets (S (pg_d g)) (N.to_nat (pg_n g)) (Qdiag' g)) i j))).
  2:{ intros i Hi. rewrite <- rsum_add. apply rsum_ext. intros j Hj. numr. ring. }
  rewrite rsum_add. unfold Qform. f_equal.
  - rewrite (laplacian_form _ QL x y EL). unfold priv_form. fold (localMeasurements g).
    destruct (localMeasurements g) as [|m0 ms0] eqn:EM; [reflexivity|].
    assert (ED : edges_dim (m0 :: ms0) = pg_d g).
    { rewrite <- EM. apply local_dim; auto. rewrite EM. discriminate. }
    rewrite ED. reflexivity.
  - rewrite <- (Qdiag_form g x y W). cbn zeta.
    etransitivity; [exact (spcoef_sum _ _ _ (fun i j => x i * y j) HR)|].
    rewrite diag_sum. reflexivity.
Qed.

Lemma Qform_sym g x y : Qform g x y = Qform g y x.
Proof.
  unfold Qform, priv_form. f_equal; [|f_equal].
  - apply rsumL_ext. intros m _. apply rsum_ext. intros. ring.
  - apply rsumL_ext. intros m _. destruct (qused g m); auto. unfold sh_form. destruct (is_out g m); apply rsum_ext; intros; ring.
  - apply rsumL_ext. intros kv _. unfold pr_form. apply rsum_ext. intros; ring.
Qed.

(** Linear functional given by G. *)
Definition sh_lin g (m : Meas R) (Z : Mx R) (x : nat -> R) (a : nat) : R :=
  let d := pg_d g in let i := N.to_nat (own_idx g m) in
  if is_out g m then - rsum (S d) (fun c => omg d m c * Z a c * outx d m i x c)
  else - rsum (S d) (fun c => omg d m c * rsum (S d) (fun b => Z a b * hom d m b c) * x (i * S d + c)%nat).

Definition pr_lin d (i : nat) (P : Mx R) (x : nat -> R) (a : nat) : R :=
  - rsum (S d) (fun c => pr_omg d c * P a c * x (i * S d + c)%nat).

Lemma blkG_form g m Z x a : let d := pg_d g in let i := N.to_nat (own_idx g m) in
  mcols Z = S d ->
  rsum (S d) (fun c => x (i * S d + c)%nat * blkG g m Z a c) = sh_lin g m Z x a.
Proof.
  cbn zeta. intros HZ. unfold sh_lin, blkG. cbn zeta. set (d := pg_d g) in *. set (i := N.to_nat (own_idx g m)).
  destruct (is_out g m).
  - unfold outx. rewrite <- rsum_opp.
    rewrite (rsum_ext (S d) (fun c => - (omg d m c * Z a c * _))
       (fun k => rsum (S d) (fun c => x (i * S d + c)%nat * (- Z a k * omg d m k * hom d m c k)))).
    2:{ intros k Hk. rewrite <- rsum_scal, <- rsum_opp. apply rsum_ext. intros. ring. }
    symmetry. rewrite rsum_swap. apply rsum_ext. intros c Hc. rewrite rsum_scal. f_equal. symmetry.
    change (mmul (mmul (mopp Z) (meas_omega d m)) (mtr (hom d m)) a c)
      with (rsum (S d) (fun k => mmul (mopp Z) (meas_omega d m) a k * hom d m c k)).
    apply rsum_ext. intros k Hk. rewrite mul_diag by auto. reflexivity.
  - rewrite <- rsum_opp. apply rsum_ext. intros c Hc. rewrite mul_diag by auto.
    change (mmul (mopp Z) (hom d m) a c) with (rsum (mcols Z) (fun b => - Z a b * hom d m b c)). rewrite HZ.
    rewrite (rsum_ext (S d) (fun b => - Z a b * hom d m b c) (fun b => - (Z a b * hom d m b c))) by (intros; ring).
    rewrite rsum_opp. ring.
Qed.

Lemma priorG_form d i (P : Mx R) x a : mcols P = S d ->
  rsum (S d) (fun c => x (i * S d + c)%nat * mmul (mopp P) (omega d prior_kappa prior_tau) a c) = pr_lin d i P x a.
Proof.
  intros HP. unfold pr_lin. rewrite <- rsum_opp. apply rsum_ext. intros c Hc.
  change (mmul (mopp P) (omega d prior_kappa prior_tau) a c)
    with (rsum (mcols P) (fun k => - P a k * omega d prior_kappa prior_tau k c)). rewrite HP.
  rewrite (rsum_single _ c); auto.
  - rewrite omega_val, Nat.eqb_refl. unfold pr_omg, prior_kappa, prior_tau. numr. destruct (Nat.ltb c d); ring.
  - intros k Hk N. rewrite omega_val. destruct (Nat.eqb_spec k c); [lia|ring].
Qed.

Definition Glin (g : PoseGraph R) (x : nat -> R) (a : nat) : R :=
  nsumL (fun m => match used g m with Some Z => sh_lin g m Z x a | None => 0 end) (pg_shared g) +
  nsumL (fun kv : N * Mx R => pr_lin (pg_d g) (N.to_nat (fst kv)) (snd kv) x a) (pg_priors g).

Lemma used_in (g : PoseGraph R) m Z : pg_wf g -> used g m = Some Z -> exists p, In (p, Z) (pg_nposes g).
Proof.
  intros W. unfold used, remote. destruct (_ || _); [|discriminate]. intros E.
  apply (mfind_In _ pose_total) in E; [eauto|apply (wf_nposes_sorted _ W)].
Qed.

Definition used_ok (g : PoseGraph R) : Prop :=
  forall m Z, In m (pg_shared g) -> used g m = Some Z -> mcols Z = S (pg_d g).

Lemma nposes_used g : pg_wf g -> nposes_ok g -> used_ok g.
Proof. intros W HN m Z _ U. destruct (used_in g m Z W U) as (p & Hp). apply (HN p Z Hp). Qed.

Lemma Gval_form (g : PoseGraph R) (x : nat -> R) a : pg_wf g -> used_ok g -> (a < pg_r g)%nat ->
  rsum (S (pg_d g) * N.to_nat (pg_n g)) (fun j => x j * Gval g a j) = Glin g x a.
Proof.
  intros W HN Ha. set (d := pg_d g). set (n := N.to_nat (pg_n g)).
  rewrite Nat.mul_comm, rsum_mult. unfold Gval. fold d n.
  set (Phi := fun M : Mx R => rsum n (fun q => rsum (S d) (fun c => x (q * S d + c)%nat * M a (q * S d + c)%nat))).
  set (prM := fun X : Mx R => mmul (mopp X) (omega d prior_kappa prior_tau)).
  change (Phi (fold_left (add_prior g prM) (pg_priors g)
            (fold_left (add_use (blkG g) g) (pg_shared g) (mzero (pg_r g) (S d * n)))) = Glin g x a).
  assert (AB : forall M idx B, (N.to_nat idx < n)%nat ->
     Phi (add_blk (S d) M idx B) = Phi M + rsum (S d) (fun c => x (N.to_nat idx * S d + c)%nat * B a c)).
  { intros M idx B Hi.
    pose proof (add_blk_sum (S d) n (mkMx 1 (mcols M) (fun _ j => M a j)) (mkMx 1 (mcols B) (fun _ j => B a j)) idx
                 (fun q _ c => x (q * S d + c)%nat) 1 ltac:(lia) Hi) as AB.
    unfold Phi.
    rewrite (rsum_ext n (fun q => rsum (S d) (fun c => x (q * S d + c)%nat * add_blk (S d) M idx B a (q * S d + c)%nat))
      (fun q => rsum 1 (fun r => rsum (S d) (fun c => x (q * S d + c)%nat *
         add_blk (S d) (mkMx 1 (mcols M) (fun _ j => M a j)) idx (mkMx 1 (mcols B) (fun _ j => B a j)) r (q * S d + c)%nat)))).
    2:{ intros q Hq. rewrite rsum_one. reflexivity. }
    rewrite AB. rewrite rsum_one. cbn [mat]. f_equal.
    apply rsum_ext. intros q Hq. rewrite rsum_one. reflexivity. }
  assert (P1 : forall kvs M, (forall kv, In kv kvs -> In kv (pg_priors g)) ->
    Phi (fold_left (add_prior g prM) kvs M) =
    Phi M + nsumL (fun kv : N * Mx R => pr_lin d (N.to_nat (fst kv)) (snd kv) x a) kvs).
  { induction kvs as [|kv kvs IH]; intros M Hin; cbn [fold_left].
    - rewrite rsumL_nil. lra.
    - rewrite IH by (intros; apply Hin; right; auto). rewrite rsumL_cons.
      destruct kv as [k X]. destruct (wf_priors _ W k X) as (A & B & C); [apply Hin; left; auto|].
      unfold add_prior. fold d. cbn [fst snd]. rewrite AB by (unfold n; lia).
      unfold prM. rewrite priorG_form by auto. lra. }
  assert (P2 : forall ms M, (forall m, In m ms -> In m (pg_shared g)) ->
    Phi (fold_left (add_use (blkG g) g) ms M) =
    Phi M + nsumL (fun m => match used g m with Some Z => sh_lin g m Z x a | None => 0 end) ms).
  { induction ms as [|m ms IH]; intros M Hin; cbn [fold_left].
    - rewrite rsumL_nil. lra.
    - rewrite IH by (intros; apply Hin; right; auto). rewrite rsumL_cons. unfold add_use at 1.
      destruct (used g m) as [Z|] eqn:U; [|lra].
      pose proof (own_idx_lt g m W (Hin m (or_introl eq_refl))).
      pose proof (HN m Z (Hin m (or_introl eq_refl)) U) as HZ.
      fold d. rewrite AB by (unfold n; lia).
      pose proof (blkG_form g m Z x a HZ) as BF. cbn zeta in BF. fold d in BF. rewrite BF. lra. }
  rewrite P1, P2 by auto. unfold Glin. fold d.
  assert (Zr : Phi (mzero (pg_r g) (S d * n)) = 0).
  { unfold Phi. apply rsum_zero'. intros. apply rsum_zero'. intros. cbn [mzero mat]. numr. ring. }
  rewrite Zr. lra.
Qed.
