(** Proofs about chordal initialisation (C53). *)
From Coq Require Import List NArith ZArith Bool Arith Lia Reals Lra Psatz.
From Verif Require Import Base Num RSum Det MatR ModelTypes ModelPoseGraph ModelPoses ModelProblem ModelSolver ModelChordal ModelInit
  SpecCost SpecSolver SpecInit ProofsPoseGraph ProofsSolver ProofsPoses ProofsOdom ProofsChordal.
Import ListNotations.
Local Open Scope R_scope.

(** ** Sizes *)
Lemma two64_big n : (n < two32)%N -> (n + 1 < two64)%N.
Proof. unfold two32, two64. lia. Qed.

Lemma fold_count ms : forall s n, (s <= n)%N -> (n < two32)%N -> (forall m : Meas R, In m ms -> (mp1 m < n)%N /\ (mp2 m < n)%N) ->
  (s = n \/ exists m, In m ms /\ ((mp1 m + 1)%N = n \/ (mp2 m + 1)%N = n)) ->
  fold_left (fun n m => N.max (N.max n (u64 (mp1 m + 1))) (u64 (mp2 m + 1))) ms s = n.
Proof.
  induction ms as [|m ms IH]; intros s n Hs Hn A B; cbn [fold_left].
  - destruct B as [->|(m & [] & _)]. reflexivity.
  - destruct (A m (or_introl eq_refl)) as [A1 A2]. pose proof (two64_big n Hn).
    unfold u64. rewrite !N.mod_small by lia. apply IH; auto; [lia|intros; apply A; right; auto|].
    destruct B as [->|(x & [->|Hx] & B)]; [left; lia|left; lia|right; exists x; auto].
Qed.

Lemma dim_and_count d n ms : (d = 2 \/ d = 3)%nat -> ms <> [] -> (forall m, In m ms -> meas_sized d m) -> (n < two32)%N -> pose_count ms n ->
  get_dimension_and_num_poses ms = Ok (d, n).
Proof.
  intros Hd Hne Hs Hn [A B]. destruct ms as [|m0 ms0]; [congruence|]. unfold get_dimension_and_num_poses.
  destruct (Hs m0 (or_introl eq_refl)) as [_ [D _]]. rewrite D.
  rewrite (proj2 (orb_true_iff _ _)) by (destruct Hd as [-> | ->]; auto). cbn [check]. do 2 f_equal.
  apply fold_count; auto; lia.
Qed.

Lemma b_count ms n : pose_count ms n -> b_num_poses ms = n.
Proof.
  intros [A B]. unfold b_num_poses. apply N.le_antisymm.
  - cut (forall l s, (s + 1 <= n)%N -> (forall m : Meas R, In m l -> (mp1 m < n)%N /\ (mp2 m < n)%N) ->
       (fold_left (fun n m => let mp := N.max (mp1 m) (mp2 m) in if n <? mp then mp else n) l s + 1 <= n)%N).
    { intros H. apply H; auto. destruct B as (m & Hm & B). destruct (A m Hm). lia. }
    induction l as [|m l IH]; intros s Hs Al; cbn [fold_left]; auto. destruct (Al m (or_introl eq_refl)).
    apply IH; [|intros; apply Al; right; auto]. cbn zeta. destruct (N.ltb_spec s (N.max (mp1 m) (mp2 m))); lia.
  - destruct B as (m & Hm & B). destruct (b_num_le ms m Hm) as [H1 H2]. unfold b_num_poses in H1, H2. lia.
Qed.

Lemma b_sizes ms (B1 B2 B3 : Mx R) : constructBMatrices ms = Ok (B1, B2, B3) ->
  let d := edges_dim ms in let n := N.to_nat (b_num_poses ms) in
  mrows B1 = (d * length ms)%nat /\ mcols B1 = (d * n)%nat /\ mrows B2 = (d * length ms)%nat /\ mcols B2 = (d * d * n)%nat /\
  mrows B3 = (d * d * length ms)%nat /\ mcols B3 = (d * d * n)%nat.
Proof.
  intros E. cbn zeta. unfold constructBMatrices in E. apply require_Ok in E. destruct E as [_ E].
  apply bind_Ok in E. destruct E as (C1 & E1 & E). apply bind_Ok in E. destruct E as (C2 & E2 & E).
  apply bind_Ok in E. destruct E as (C3 & E3 & E). inversion E; subst C1 C2 C3.
  destruct (from_triplets_Ok _ _ _ _ E1) as (_ & ? & ? & _). destruct (from_triplets_Ok _ _ _ _ E2) as (_ & ? & ? & _).
  destruct (from_triplets_Ok _ _ _ _ E3) as (_ & ? & ? & _). repeat split; assumption.
Qed.

Lemma edges_dim_sized d ms : ms <> [] -> (forall m, In m ms -> meas_sized d m) -> edges_dim ms = d.
Proof. destruct ms as [|m ms]; [congruence|]. intros _ H. destruct (H m (or_introl eq_refl)) as [_ [D E]]. cbn. rewrite D, E. lia. Qed.

Lemma has_dims d ms : (forall m, In m ms -> meas_sized d m) -> forallb (meas_has_dim d) ms = true.
Proof.
  intros H. apply forallb_forall. intros m Hm. destruct (H m Hm) as [[A B] [C D]]. unfold meas_has_dim.
  rewrite A, B, C, D, !Nat.eqb_refl. reflexivity.
Qed.

(** ** Columns *)
Lemma mulv_split (B : Mx R) k l v i : mcols B = (k + l)%nat ->
  mulv B v i = mvec (leftCols B k) v i + mulv (last_cols l B) (fun j => v (k + j)%nat) i.
Proof.
  intros E. unfold mulv at 1. rewrite E, rsum_plus. unfold mvec, mulv, leftCols, last_cols. cbn. f_equal.
  apply rsum_ext. intros j Hj. do 2 f_equal. lia.
Qed.
Lemma mulv_opp (B : Mx R) v i : mulv B (fun j => - v j) i = - mulv B v i.
Proof. unfold mulv. rewrite <- rsum_opp. apply rsum_ext. intros. ring. Qed.
Lemma mulv_ext (B : Mx R) v w i : (forall j, (j < mcols B)%nat -> v j = w j) -> mulv B v i = mulv B w i.
Proof. intros H. apply rsum_ext. intros j Hj. rewrite H; auto. Qed.
Lemma mvec_mulv (B : Mx R) v i : mvec B v i = mulv B v i.
Proof. reflexivity. Qed.

Definition glue (k : nat) (u x : nat -> R) (j : nat) : R := if (j <? k)%nat then u j else x (j - k)%nat.

Lemma mulv_glue (B : Mx R) k l u x i : mcols B = (k + l)%nat ->
  mulv B (glue k u x) i = mvec (leftCols B k) u i + mulv (last_cols l B) x i.
Proof.
  intros E. rewrite (mulv_split B k l) by auto. f_equal.
  - apply rsum_ext. intros j Hj. cbn in Hj. unfold glue. rewrite (proj2 (Nat.ltb_lt _ _) Hj). reflexivity.
  - apply mulv_ext. intros j Hj. unfold glue. rewrite (proj2 (Nat.ltb_ge _ _)) by lia. f_equal. lia.
Qed.

(** The three-index view of a vector of d x d blocks, and back. *)
Definition blocks (d : nat) (v : nat -> R) (i a c : nat) : R := v (i * (d * d) + c * d + a)%nat.

Lemma rot_cost_B3 ms (B1 B2 B3 : Mx R) v : constructBMatrices ms = Ok (B1, B2, B3) -> (forall m, In m ms -> 0 <= mkappa m) ->
  rsum (mrows B3) (fun i => sq (mulv B3 v i)) = rot_cost (edges_dim ms) ms (blocks (edges_dim ms) v).
Proof. intros E K. rewrite (chordal_B3 ms B1 B2 B3 v E K). reflexivity. Qed.

Lemma trans_cost_B12 ms (B1 B2 B3 : Mx R) t v : constructBMatrices ms = Ok (B1, B2, B3) -> (forall m, In m ms -> 0 <= mtau m) ->
  rsum (mrows B1) (fun i => sq (mulv B1 t i + mulv B2 v i)) =
  trans_cost (edges_dim ms) ms (blocks (edges_dim ms) v) (fun i a => t (i * edges_dim ms + a)%nat).
Proof. intros E K. destruct (chordal_B12 ms B1 B2 B3 t v E K) as [_ H]. rewrite H. reflexivity. Qed.

Lemma sum_sq_zero n f : rsum n (fun i => sq (f i)) = 0 -> forall i, (i < n)%nat -> f i = 0.
Proof.
  intros H i Hi. assert (A : sq (f i) = 0).
  { apply (rsum_nonneg_zero n (fun i => sq (f i))); auto. intros. unfold sq. nra. }
  unfold sq in A. nra.
Qed.

Lemma rsumL_nonneg_zero {A} (f : A -> R) l : (forall a, In a l -> 0 <= f a) -> nsumL f l = 0 -> forall a, In a l -> f a = 0.
Proof.
  induction l as [|x l IH]; intros H E a []; rewrite rsumL_cons in E.
  - subst. assert (0 <= f a) by (apply H; left; auto). assert (0 <= nsumL f l) by (apply rsumL_nonneg; intros; apply H; right; auto). lra.
  - assert (0 <= f x) by (apply H; left; auto). assert (0 <= nsumL f l) by (apply rsumL_nonneg; intros; apply H; right; auto).
    apply IH; auto; [intros; apply H; right; auto|lra].
Qed.

Lemma rot_cost_zero d ms Q : (forall m, In m ms -> 0 < mkappa m) -> rot_cost d ms Q = 0 ->
  forall m a c, In m ms -> (a < d)%nat -> (c < d)%nat ->
  Q (N.to_nat (mp2 m)) a c = rsum d (fun b => Q (N.to_nat (mp1 m)) a b * mR m b c).
Proof.
  intros K E m a c Hm Ha Hc. unfold rot_cost in E.
  assert (Z := rsumL_nonneg_zero _ ms (fun m Hm => Rmult_le_pos _ _ (Rlt_le _ _ (K m Hm))
     (rsum_nonneg _ _ (fun i _ => rsum_nonneg _ _ (fun j _ => Rle_0_sqr _)))) E m Hm).
  cbn beta in Z. pose proof (K m Hm) as Km. apply Rmult_integral in Z. destruct Z as [Z|Z]; [lra|].
  assert (Z2 := rsum_nonneg_zero d _ (fun i _ => rsum_nonneg d _ (fun j _ => Rle_0_sqr _)) Z c Hc). cbn beta in Z2.
  assert (Z3 := sum_sq_zero d _ Z2 a Ha). cbn beta in Z3. lra.
Qed.
Lemma trans_cost_zero d ms Q t : (forall m, In m ms -> 0 < mtau m) -> trans_cost d ms Q t = 0 ->
  forall m a, In m ms -> (a < d)%nat ->
  t (N.to_nat (mp2 m)) a = t (N.to_nat (mp1 m)) a + rsum d (fun b => Q (N.to_nat (mp1 m)) a b * mt m b 0%nat).
Proof.
  intros K E m a Hm Ha. unfold trans_cost in E.
  assert (Z := rsumL_nonneg_zero _ ms (fun m Hm => Rmult_le_pos _ _ (Rlt_le _ _ (K m Hm))
     (rsum_nonneg _ _ (fun i _ => Rle_0_sqr _))) E m Hm).
  cbn beta in Z. pose proof (K m Hm) as Km. apply Rmult_integral in Z. destruct Z as [Z|Z]; [lra|].
  assert (Z3 := sum_sq_zero d _ Z a Ha). cbn beta in Z3. lra.
Qed.

(** ** Rounding *)
Section Rounding.
Variable svd : Mx R -> Mx R * Mx R.
Variable determinant : Mx R -> R.
Let proj := projectToRotationGroup svd determinant.

Definition rounds (M Q : Mx R) : Prop := exists M', mx_eq M' M /\ mx_eq Q (proj M').

Lemma round_loop d n (Rc : Mx R) : sized d (d * n) Rc ->
  (forall i M, (1 <= i < n)%nat -> mx_eq M (mblock Rc 0 (i * d) d d) -> sized d d (proj M)) ->
  forall k, (k + 1 <= n)%nat -> exists Rc', foldM (round_block svd determinant d) Rc (seq 1 k) = Ok Rc' /\ sized d (d * n) Rc' /\
    (forall i, (1 <= i <= k)%nat -> rounds (mblock Rc 0 (i * d) d d) (mblock Rc' 0 (i * d) d d)) /\
    (forall i a c, (i = 0 \/ k < i)%nat -> (c < d)%nat -> Rc' a (i * d + c)%nat = Rc a (i * d + c)%nat).
Proof.
  intros HR HS. induction k as [|k IH]; intros Hk.
  - exists Rc. split; [reflexivity|]. split; auto. split; [intros; lia|auto].
  - destruct IH as (R1 & E1 & Z1 & A1 & B1); [lia|].
    rewrite seq_S, foldM_app, E1. cbn [bind]. change (1 + k)%nat with (S k). cbn [foldM].
    set (M := mblock R1 0 (S k * d) d d).
    assert (EM : mx_eq M (mblock Rc 0 (S k * d) d d)).
    { split; [reflexivity|]. split; [reflexivity|]. intros a c Ha Hc. cbn in Ha, Hc. unfold M, mblock. cbn [Num.mat].
      apply (B1 (S k) a c); [lia|auto]. }
    destruct (HS (S k) M ltac:(lia) EM) as [P1 P2].
    unfold round_block. fold M. fold proj. cbn zeta. unfold has_size. rewrite P1, P2, !Nat.eqb_refl. cbn [andb require bind].
    eexists. split; [reflexivity|]. split; [exact Z1|]. split.
    + intros i Hi. destruct (Nat.eq_dec i (S k)) as [->|Ni].
      * exists M. split; auto. split; [cbn; symmetry; exact P1|]. split; [cbn; symmetry; exact P2|].
        intros a c Ha Hc. cbn in Ha, Hc. unfold mblock. cbn [Num.mat]. apply setblock_in; [rewrite P1|rewrite P2]; auto.
      * destruct (A1 i ltac:(lia)) as (M' & E' & Q1 & Q2 & Q3). exists M'. split; auto. split; auto. split; auto.
        intros a c Ha Hc. rewrite <- Q3 by auto. cbn in Ha, Hc. unfold mblock. cbn [Num.mat]. apply setblock_out. rewrite P2. nia.
    + intros i a c Hi Hc. rewrite setblock_out by (rewrite P2; nia). apply B1; auto. lia.
Qed.
End Rounding.

(** ** Assembly *)
Lemma join_loop d n (Rc tc : Mx R) T0 : sized d ((n * (d + 1))) T0 -> forall k, (k <= n)%nat ->
  let T := fold_left (join_pose d Rc tc) (seq 0 k) T0 in
  sized d (n * (d + 1)) T /\ forall i a, (i < k)%nat -> (a < d)%nat ->
    (forall c, (c < d)%nat -> T a (i * (d + 1) + c)%nat = Rc a (i * d + c)%nat) /\ T a (i * (d + 1) + d)%nat = tc a i.
Proof.
  intros H0. induction k as [|k IH]; intros Hk; cbn zeta.
  - split; [exact H0|intros; lia].
  - rewrite seq_S, fold_left_app. cbn [fold_left]. destruct (IH ltac:(lia)) as [Z A].
    set (T := fold_left (join_pose d Rc tc) (seq 0 k) T0) in *. split; [exact Z|].
    intros i a Hi Ha. unfold join_pose. cbn [Nat.add]. destruct (Nat.eq_dec i k) as [->|Ni].
    + split.
      * intros c Hc. rewrite setblock_out by (cbn; lia). rewrite setblock_in by (cbn; lia). reflexivity.
      * replace (k * (d + 1) + d)%nat with (k * (d + 1) + d + 0)%nat at 2 by lia. rewrite setblock_in by (cbn; lia).
        cbn. f_equal. lia.
    + destruct (A i a ltac:(lia) Ha) as [A1 A2]. split.
      * intros c Hc. rewrite setblock_out by (cbn; nia). rewrite setblock_out by (cbn; nia). auto.
      * rewrite setblock_out by (cbn; nia). rewrite setblock_out by (cbn; nia). auto.
Qed.

Lemma divmod d q l : (l < d)%nat -> ((q * d + l) mod d = l /\ (q * d + l) / d = q)%nat.
Proof.
  intros H. split.
  - rewrite Nat.add_comm, Nat.mod_add by lia. apply Nat.mod_small; auto.
  - rewrite Nat.div_add_l by lia. rewrite Nat.div_small by auto. lia.
Qed.

Lemma blocks_vec d (M : Mx R) i a c : (a < d)%nat -> (c < d)%nat -> blocks d (vec_of d M) i a c = M a (i * d + c)%nat.
Proof.
  intros Ha Hc. unfold blocks, vec_of. replace (i * (d * d) + c * d + a)%nat with ((i * d + c) * d + a)%nat by lia.
  destruct (divmod d (i * d + c) a Ha) as [-> ->]. reflexivity.
Qed.

Lemma count_pos n ms : pose_count ms (N.of_nat n) -> (1 <= n)%nat.
Proof. intros [A (m & Hm & _)]. destruct (A m Hm). lia. Qed.

Section Run.
Variable qr : Mx R -> (nat -> R) -> nat -> R.
Variable svd : Mx R -> Mx R * Mx R.
Variable determinant : Mx R -> R.
Variables (d n : nat) (ms : list (Meas R)) (B1 B2 B3 : Mx R).
Hypothesis Hd : (d = 2 \/ d = 3)%nat.
Hypothesis Hne : ms <> [].
Hypothesis Hs : forall m, In m ms -> meas_sized d m.
Hypothesis Hn : (N.of_nat n * N.of_nat (d * d) < two32)%N.
Hypothesis Hp : pose_count ms (N.of_nat n).
Hypothesis EB : constructBMatrices ms = Ok (B1, B2, B3).

(** The relaxed rotations as one vector, the first block being the identity. *)
Definition relaxed : nat -> R :=
  glue (d * d) (vec_of d (mident d)) (fun i => - qr (last_cols ((n - 1) * (d * d)) B3) (mvec (leftCols B3 (d * d)) (vec_of d (mident d))) i).
(** Translations for given rotations, the first being zero. *)
Definition positions (Rc : Mx R) (i a : nat) : R :=
  match i with O => 0 | S j => - qr (last_cols (d * (n - 1)) B1) (mvec B2 (vec_of d Rc)) (j * d + a)%nat end.

Lemma n_small : (N.of_nat n < two32)%N.
Proof. assert (1 <= N.of_nat (d * d))%N by (destruct Hd as [-> | ->]; lia). nia. Qed.
Lemma the_sizes : mrows B1 = (d * length ms)%nat /\ mcols B1 = (d * n)%nat /\ mrows B2 = (d * length ms)%nat /\
  mcols B2 = (d * d * n)%nat /\ mrows B3 = (d * d * length ms)%nat /\ mcols B3 = (d * d * n)%nat.
Proof.
  pose proof (b_sizes ms B1 B2 B3 EB) as H. cbn zeta in H. rewrite (edges_dim_sized d ms Hne Hs), (b_count ms _ Hp), Nat2N.id in H. exact H.
Qed.

Lemma chordal_run :
  (forall i M, (1 <= i < n)%nat -> sized d d M -> (forall a c, (a < d)%nat -> (c < d)%nat -> M a c = blocks d relaxed i a c) ->
     sized d d (projectToRotationGroup svd determinant M)) ->
  exists Rc T, chordalInitialization qr svd determinant ms = Ok T /\ traj d n T /\ sized d (d * n) Rc /\
    (forall i a c, (i < n)%nat -> (a < d)%nat -> (c < d)%nat -> pblk T i a c = Rc a (i * d + c)%nat) /\
    (forall i a, (i < n)%nat -> (a < d)%nat -> pblk T i a d = positions Rc i a) /\
    (forall a c, (a < d)%nat -> (c < d)%nat -> Rc a c = if Nat.eqb a c then 1 else 0) /\
    (forall i, (1 <= i < n)%nat -> exists M, sized d d M /\ (forall a c, (a < d)%nat -> (c < d)%nat -> M a c = blocks d relaxed i a c) /\
       forall a c, (a < d)%nat -> (c < d)%nat -> Rc a (i * d + c)%nat = projectToRotationGroup svd determinant M a c).
Proof.
  intros HS. pose proof (count_pos n ms Hp) as Np. pose proof n_small as Ns. destruct the_sizes as (S1 & S2 & S3 & S4 & S5 & S6).
  assert (Dp : (1 <= d)%nat) by (destruct Hd; lia).
  unfold chordalInitialization. rewrite (dim_and_count d (N.of_nat n) ms Hd Hne Hs Ns Hp), EB. cbn [bind].
  rewrite (edges_dim_sized d ms Hne Hs). cbn zeta. rewrite Nat2N.id, Nat.eqb_refl, S6. cbn [check].
  rewrite (proj2 (Nat.eqb_neq (d * d) 0)) by nia. cbn [negb require].
  replace (u32 (N.of_nat (d * d * n)) / N.of_nat (d * d))%N with (N.of_nat n).
  2:{ unfold u32. rewrite N.mod_small by (rewrite Nat2N.inj_mul; lia). rewrite Nat2N.inj_mul, N.mul_comm, N.div_mul; lia. }
  rewrite N.eqb_refl. cbn [check]. rewrite (proj2 (Nat.leb_le 1 n) Np), (proj2 (Nat.leb_le (n * (d * d)) (d * d * n))) by lia. cbn [andb require].
  change (rightCols B3 ((n - 1) * (d * d))) with (last_cols ((n - 1) * (d * d)) B3).
  set (rv := fun i => (- qr (last_cols ((n - 1) * (d * d)) B3) (mvec (leftCols B3 (d * d)) (vec_of d (mident d))) i)%num).
  set (Rc := msetblock (msetblock (mzero d (d * n)) 0 0 (mident d)) 0 d (unvec d ((n - 1) * d) rv)).
  assert (V : forall i a c, (i < n)%nat -> (a < d)%nat -> (c < d)%nat -> Rc a (i * d + c)%nat = blocks d relaxed i a c).
  { intros i a c Hi Ha Hc. unfold Rc. destruct i as [|j].
    - cbn [Nat.mul Nat.add]. rewrite setblock_out by (left; auto). rewrite (setblock_in _ (mident d) 0 a c) by (cbn; auto).
      unfold blocks, relaxed, glue. rewrite (proj2 (Nat.ltb_lt _ _)) by nia. unfold vec_of.
      cbn [Nat.mul Nat.add]. destruct (divmod d c a Ha) as [-> ->]. reflexivity.
    - replace (S j * d + c)%nat with (d + (j * d + c))%nat by lia. rewrite setblock_in by (cbn; nia).
      unfold blocks, relaxed, glue. rewrite (proj2 (Nat.ltb_ge _ _)) by nia. unfold unvec. cbn [Num.mat]. unfold rv. cbn [nopp NumR].
      do 2 f_equal. nia. }
  assert (VB : forall i M, (1 <= i < n)%nat -> mx_eq M (mblock Rc 0 (i * d) d d) -> sized d d M /\
     forall a c, (a < d)%nat -> (c < d)%nat -> M a c = blocks d relaxed i a c).
  { intros i M Hi (A & B & C). cbn in A, B. split; [split; auto|]. intros a c Ha Hc. rewrite C by congruence. cbn. apply V; auto; lia. }
  destruct (round_loop svd determinant d n Rc (conj eq_refl eq_refl)) with (k := (n - 1)%nat) as (Rr & E1 & Z1 & A1 & B1'); [|lia|].
  { intros i M Hi EM. destruct (VB i M Hi EM) as [Q1 Q2]. apply (HS i M); auto. }
  rewrite E1. cbn [bind]. destruct Z1 as [ZR ZC].
  unfold recoverTranslations. rewrite ZR, ZC. rewrite (proj2 (Nat.eqb_neq d 0)) by lia. cbn [negb require].
  replace (d * n / d)%nat with n by (rewrite Nat.mul_comm, Nat.div_mul by lia; reflexivity).
  rewrite (proj2 (Nat.leb_le 1 n) Np), S2, S4, S1, S3, !Nat.eqb_refl, (proj2 (Nat.leb_le _ _)) by nia. cbn [andb require bind].
  change (rightCols B1 (d * (n - 1))) with (last_cols (d * (n - 1)) B1).
  set (tr := fun i => (- qr (last_cols (d * (n - 1)) B1) (mvec B2 (vec_of d Rr)) i)%num).
  set (tc := msetblock (mzero d n) 0 1 (unvec d (n - 1) tr)).
  cbn zeta. change (mrows tc) with d. change (mcols tc) with n. rewrite !Nat.eqb_refl. cbn [check].
  destruct (join_loop d n Rr tc (mzero d (n * (d + 1))) (conj eq_refl eq_refl) n (le_n n)) as [ZT VT]. cbn zeta in ZT, VT.
  set (T := fold_left (join_pose d Rr tc) (seq 0 n) (mzero d (n * (d + 1)))) in *.
  destruct (fresh_traj d n) as (P & EP & HP). rewrite EP. cbn [bind]. destruct HP as (P1 & P2 & P3 & P4 & P5).
  rewrite pa_setData_spec; [|rewrite P1; apply ZT|rewrite P2, P3; rewrite (proj2 ZT); lia].
  rewrite P1, P2, P3. exists Rr. eexists. split; [reflexivity|]. split.
  { repeat split; cbn; try apply ZT. rewrite (proj2 ZT). lia. }
  split; [split; auto|]. split; [|split; [|split]].
  - intros i a c Hi Ha Hc. unfold pblk. cbn [pa_X pa_d]. apply (VT i a Hi Ha). auto.
  - intros i a Hi Ha. unfold pblk. cbn [pa_X pa_d]. rewrite (proj2 (VT i a Hi Ha)). unfold tc. destruct i as [|j].
    + rewrite setblock_out by (left; lia). reflexivity.
    + change (S j) with (1 + j)%nat. rewrite setblock_in by (cbn; lia). reflexivity.
  - intros a c Ha Hc. transitivity (Rr a (0 * d + c)%nat); [reflexivity|]. rewrite (B1' 0%nat a c (or_introl eq_refl) Hc). rewrite (V 0%nat a c Np Ha Hc).
    unfold blocks, relaxed, glue. cbn [Nat.mul Nat.add]. rewrite (proj2 (Nat.ltb_lt _ _)) by nia. unfold vec_of.
    destruct (divmod d c a Ha) as [-> ->]. reflexivity.
  - intros i Hi. destruct (A1 i ltac:(lia)) as (M & EM & Q1 & Q2 & Q3). destruct (VB i M Hi EM) as [M1 M2].
    exists M. split; [exact M1|]. split; [exact M2|]. intros a c Ha Hc. rewrite <- Q3 by (cbn; auto). reflexivity.
Qed.
End Run.

(** ** What the solves give *)
Lemma in_range_ms n ms (Hp : pose_count ms (N.of_nat n)) m : In m ms -> (N.to_nat (mp1 m) < n)%nat /\ (N.to_nat (mp2 m) < n)%nat.
Proof. intros Hm. destruct Hp as [A _]. destruct (A m Hm). lia. Qed.

Lemma rot_cost_ext d n ms (Hp : pose_count ms (N.of_nat n)) Q Q' : (forall i a c, (i < n)%nat -> (a < d)%nat -> (c < d)%nat -> Q i a c = Q' i a c) -> rot_cost d ms Q = rot_cost d ms Q'.
Proof.
  intros H. apply rsumL_ext. intros m Hm. destruct (in_range_ms n ms Hp m Hm). f_equal. apply rsum_ext. intros c Hc. apply rsum_ext. intros a Ha.
  rewrite H by auto. do 2 f_equal. apply rsum_ext. intros b Hb. rewrite H by auto. reflexivity.
Qed.
Lemma trans_cost_ext d n ms (Hp : pose_count ms (N.of_nat n)) Q Q' t t' : (forall i a c, (i < n)%nat -> (a < d)%nat -> (c < d)%nat -> Q i a c = Q' i a c) ->
  (forall i a, (i < n)%nat -> (a < d)%nat -> t i a = t' i a) -> trans_cost d ms Q t = trans_cost d ms Q' t'.
Proof.
  intros H H'. apply rsumL_ext. intros m Hm. destruct (in_range_ms n ms Hp m Hm). f_equal. apply rsum_ext. intros a Ha.
  rewrite !H' by auto. do 2 f_equal. apply rsum_ext. intros b Hb. rewrite H by auto. reflexivity.
Qed.

Section Solved.
Variable qr : Mx R -> (nat -> R) -> nat -> R.
Variables (d n : nat) (ms : list (Meas R)) (B1 B2 B3 : Mx R).
Hypothesis Hd : (d = 2 \/ d = 3)%nat.
Hypothesis Hne : ms <> [].
Hypothesis Hs : forall m, In m ms -> meas_sized d m.
Hypothesis Hn : (N.of_nat n * N.of_nat (d * d) < two32)%N.
Hypothesis Hp : pose_count ms (N.of_nat n).
Hypothesis EB : constructBMatrices ms = Ok (B1, B2, B3).
Let B3red := last_cols ((n - 1) * (d * d)) B3.
Let B1red := last_cols (d * (n - 1)) B1.
Let vI : nat -> R := vec_of d (mident d).
Let cR := mvec (leftCols B3 (d * d)) vI.

(** Any rotations starting with the identity, as a vector. *)
Definition tail_of (Q : nat -> nat -> nat -> R) (k : nat) : R := Q (S (k / (d * d)))%nat (k mod d)%nat (k / d mod d)%nat.
Lemma tail_blocks Q : (forall a c, (a < d)%nat -> (c < d)%nat -> Q 0%nat a c = if Nat.eqb a c then 1 else 0) ->
  forall i a c, (a < d)%nat -> (c < d)%nat -> blocks d (glue (d * d) vI (tail_of Q)) i a c = Q i a c.
Proof.
  intros H0 i a c Ha Hc. unfold blocks, glue. destruct i as [|j].
  - cbn [Nat.mul Nat.add]. rewrite (proj2 (Nat.ltb_lt _ _)) by nia. unfold vI, vec_of. destruct (divmod d c a Ha) as [-> ->].
    rewrite H0 by auto. reflexivity.
  - rewrite (proj2 (Nat.ltb_ge _ _)) by nia. replace (S j * (d * d) + c * d + a - d * d)%nat with (j * (d * d) + (c * d + a))%nat by nia.
    unfold tail_of. assert (L : (c * d + a < d * d)%nat) by nia. destruct (divmod (d * d) j (c * d + a) L) as [_ ->].
    replace (j * (d * d) + (c * d + a))%nat with ((j * d + c) * d + a)%nat by lia. destruct (divmod d (j * d + c) a Ha) as [-> ->].
    destruct (divmod d j c Hc) as [-> _]. reflexivity.
Qed.

Lemma B3_cost x : (forall m, In m ms -> 0 <= mkappa m) ->
  rot_cost d ms (blocks d (glue (d * d) vI (fun i => - x i))) = residual2 B3red cR x.
Proof.
  intros K. pose proof (rot_cost_B3 ms B1 B2 B3 (glue (d * d) vI (fun i => - x i)) EB K) as H.
  rewrite (edges_dim_sized d ms Hne Hs) in H. rewrite <- H. unfold residual2, B3red. cbn [mrows last_cols]. apply rsum_ext. intros i Hi.
  destruct (the_sizes d n ms B1 B2 B3 Hne Hs Hp EB) as (_ & _ & _ & _ & _ & S6).
  pose proof (count_pos n ms Hp). assert (E : mcols B3 = (d * d + (n - 1) * (d * d))%nat) by nia.
  rewrite (mulv_glue B3 _ _ _ _ _ E), mulv_opp. fold cR. unfold sq. fold (cR i). ring.
Qed.

Lemma relaxed_min Q : (forall m, In m ms -> 0 <= mkappa m) -> least_squares B3red cR (qr B3red cR) ->
  (forall a c, (a < d)%nat -> (c < d)%nat -> Q 0%nat a c = if Nat.eqb a c then 1 else 0) ->
  rot_cost d ms (blocks d (relaxed qr d n B3)) <= rot_cost d ms Q.
Proof.
  intros K L H0. unfold relaxed. fold vI cR B3red. rewrite B3_cost by auto.
  rewrite <- (rot_cost_ext d n ms Hp (blocks d (glue (d * d) vI (fun i => - - tail_of Q i))) Q).
  2:{ intros i a c _ Ha Hc. rewrite <- (tail_blocks Q H0 i a c Ha Hc). unfold blocks, glue. destruct (_ <? _)%nat; [reflexivity|ring]. }
  rewrite (B3_cost (fun i => - tail_of Q i)) by auto. apply L.
Qed.

Lemma relaxed_zero Q : (forall m, In m ms -> 0 < mkappa m) -> solves_if_possible qr B3red ->
  (forall a c, (a < d)%nat -> (c < d)%nat -> Q 0%nat a c = if Nat.eqb a c then 1 else 0) -> rot_cost d ms Q = 0 ->
  rot_cost d ms (blocks d (relaxed qr d n B3)) = 0.
Proof.
  intros K L H0 HQ. assert (K' : forall m, In m ms -> 0 <= mkappa m) by (intros m Hm; specialize (K m Hm); lra).
  unfold relaxed. fold vI cR B3red. rewrite B3_cost by auto.
  rewrite <- (rot_cost_ext d n ms Hp (blocks d (glue (d * d) vI (fun i => - - tail_of Q i))) Q) in HQ.
  2:{ intros i a c _ Ha Hc. rewrite <- (tail_blocks Q H0 i a c Ha Hc). unfold blocks, glue. destruct (_ <? _)%nat; [reflexivity|ring]. }
  rewrite (B3_cost (fun i => - tail_of Q i)) in HQ by auto. unfold residual2 in HQ |- *.
  pose proof (sum_sq_zero _ _ HQ) as Z. cbn beta in Z. apply rsum_zero'. intros i Hi. rewrite (L cR); auto.
  - unfold sq. ring.
  - exists (fun i => - tail_of Q i). intros k Hk. specialize (Z k Hk). lra.
Qed.

(** Translations starting with zero, as a vector. *)
Definition tail_pos (t : nat -> nat -> R) (k : nat) : R := t (S (k / d))%nat (k mod d)%nat.
Definition pos_of (x : nat -> R) (i a : nat) : R := match i with O => 0 | S j => x (j * d + a)%nat end.

Lemma B1_cost (Rc : Mx R) x : (forall m, In m ms -> 0 <= mtau m) ->
  trans_cost d ms (fun i a c => Rc a (i * d + c)%nat) (pos_of (fun i => - x i)) = residual2 B1red (mvec B2 (vec_of d Rc)) x.
Proof.
  intros K. pose proof (trans_cost_B12 ms B1 B2 B3 (glue d (fun _ => 0) (fun i => - x i)) (vec_of d Rc) EB K) as H.
  rewrite (edges_dim_sized d ms Hne Hs) in H.
  rewrite (trans_cost_ext d n ms Hp _ (blocks d (vec_of d Rc)) _ (fun i a => glue d (fun _ => 0) (fun i => - x i) (i * d + a)%nat)).
  - rewrite <- H. unfold residual2, B1red. cbn [mrows last_cols]. apply rsum_ext. intros i Hi.
    destruct (the_sizes d n ms B1 B2 B3 Hne Hs Hp EB) as (_ & S2 & _).
    pose proof (count_pos n ms Hp). assert (E : mcols B1 = (d + d * (n - 1))%nat) by nia.
    assert (Z : mvec (leftCols B1 d) (fun _ => 0) i = 0) by (apply rsum_zero'; intros; cbn; ring).
    rewrite (mulv_glue B1 _ _ _ _ _ E), mulv_opp, Z. change (mvec B2 (vec_of d Rc) i) with (mulv B2 (vec_of d Rc) i). unfold sq. ring.
  - intros i a c _ Ha Hc. symmetry. apply blocks_vec; auto.
  - intros i a _ Ha. unfold pos_of, glue. destruct i as [|j].
    + cbn [Nat.mul Nat.add]. rewrite (proj2 (Nat.ltb_lt _ _) Ha). reflexivity.
    + rewrite (proj2 (Nat.ltb_ge _ _)) by nia. do 2 f_equal. nia.
Qed.

Lemma tail_pos_of t : (forall a, (a < d)%nat -> t 0%nat a = 0) -> forall i a, (a < d)%nat -> pos_of (tail_pos t) i a = t i a.
Proof.
  intros H0 i a Ha. unfold pos_of, tail_pos. destruct i as [|j]; [rewrite H0; auto|]. destruct (divmod d j a Ha) as [-> ->]. reflexivity.
Qed.

Lemma trans_shift Q t (s : nat -> R) : trans_cost d ms Q (fun i a => t i a - s a) = trans_cost d ms Q t.
Proof. apply rsumL_ext. intros m Hm. f_equal. apply rsum_ext. intros a Ha. f_equal. ring. Qed.

Lemma opp_pos t i a : pos_of (fun i => - - tail_pos t i) i a = pos_of (tail_pos t) i a.
Proof. unfold pos_of. destruct i; [reflexivity|ring]. Qed.

Lemma positions_min (Rc : Mx R) t : (forall m, In m ms -> 0 <= mtau m) ->
  least_squares B1red (mvec B2 (vec_of d Rc)) (qr B1red (mvec B2 (vec_of d Rc))) ->
  trans_cost d ms (fun i a c => Rc a (i * d + c)%nat) (positions qr d n B1 B2 Rc) <= trans_cost d ms (fun i a c => Rc a (i * d + c)%nat) t.
Proof.
  intros K L. change (positions qr d n B1 B2 Rc) with (pos_of (fun i => - qr B1red (mvec B2 (vec_of d Rc)) i)). rewrite B1_cost by auto.
  rewrite <- (trans_shift _ t (t 0%nat)).
  rewrite <- (trans_cost_ext d n ms Hp (fun i a c => Rc a (i * d + c)%nat) _ (pos_of (fun i => - - tail_pos (fun i a => t i a - t 0%nat a) i)) (fun i a => t i a - t 0%nat a)).
  - rewrite (B1_cost Rc (fun i => - tail_pos (fun i a => t i a - t 0%nat a) i)) by auto. apply L.
  - auto.
  - intros i a _ Ha. rewrite opp_pos. apply (tail_pos_of (fun i a => t i a - t 0%nat a)); auto. intros. ring.
Qed.

Lemma positions_zero (Rc : Mx R) t : (forall m, In m ms -> 0 < mtau m) -> solves_if_possible qr B1red ->
  (forall a, (a < d)%nat -> t 0%nat a = 0) -> trans_cost d ms (fun i a c => Rc a (i * d + c)%nat) t = 0 ->
  trans_cost d ms (fun i a c => Rc a (i * d + c)%nat) (positions qr d n B1 B2 Rc) = 0.
Proof.
  intros K L H0 Ht. assert (K' : forall m, In m ms -> 0 <= mtau m) by (intros m Hm; specialize (K m Hm); lra).
  change (positions qr d n B1 B2 Rc) with (pos_of (fun i => - qr B1red (mvec B2 (vec_of d Rc)) i)). rewrite B1_cost by auto.
  rewrite <- (trans_cost_ext d n ms Hp (fun i a c => Rc a (i * d + c)%nat) _ (pos_of (fun i => - - tail_pos t i)) t) in Ht.
  2:{ auto. } 2:{ intros i a _ Ha. rewrite opp_pos. apply tail_pos_of; auto. }
  rewrite (B1_cost Rc (fun i => - tail_pos t i)) in Ht by auto. unfold residual2 in Ht |- *.
  pose proof (sum_sq_zero _ _ Ht) as Z. cbn beta in Z. apply rsum_zero'. intros i Hi. rewrite (L (mvec B2 (vec_of d Rc))); auto.
  - unfold sq. ring.
  - exists (fun i => - tail_pos t i). intros k Hk. specialize (Z k Hk). lra.
Qed.
End Solved.
