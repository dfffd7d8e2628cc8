(** Proofs about pose arrays and pose algebra (C27, C28). *)
From Coq Require Import List NArith ZArith Bool Arith Lia Reals Lra Psatz.
From Verif Require Import Base Num RSum Det ModelTypes ModelPoses ModelProblem SpecCost SpecSolver MatR ProofsPoseGraph ProofsSolver.
Import ListNotations.

Section Arr.
Context {S : Type} `{Num S}.

Lemma sb_in (X B : Mx S) j0 i c : (i < mrows B)%nat -> (c < mcols B)%nat -> msetblock X 0 j0 B i (j0 + c)%nat = B i c.
Proof.
  intros Hi Hc. simpl. rewrite (proj2 (Nat.ltb_lt _ _)) by lia. rewrite (proj2 (Nat.leb_le _ _)) by lia.
  rewrite (proj2 (Nat.ltb_lt _ _)) by lia. simpl. rewrite Nat.sub_0_r. f_equal. lia.
Qed.
Lemma sb_in0 (X B : Mx S) j0 i : (i < mrows B)%nat -> (0 < mcols B)%nat -> msetblock X 0 j0 B i j0 = B i O.
Proof. intros. rewrite <- (sb_in X B j0 i 0) by auto. rewrite Nat.add_0_r. reflexivity. Qed.
Lemma sb_out (X B : Mx S) j0 i j : (j < j0 \/ j0 + mcols B <= j)%nat -> msetblock X 0 j0 B i j = X i j.
Proof.
  intros H'. simpl. destruct H' as [H'|H'].
  - rewrite (proj2 (Nat.leb_gt j0 j)) by lia. rewrite andb_false_r. reflexivity.
  - rewrite (proj2 (Nat.ltb_ge j (j0 + mcols B))) by lia. rewrite !andb_false_r. reflexivity.
Qed.

Lemma has_size_eq (M : Mx S) r c : has_size M r c = true <-> mrows M = r /\ mcols M = c.
Proof. unfold has_size. rewrite andb_true_iff, !Nat.eqb_eq. tauto. Qed.

Lemma col_neq i j d : i <> j -> forall c, (c < d + 1)%nat -> (j * (d + 1) + c < i * (d + 1) \/ i * (d + 1) + (d + 1) <= j * (d + 1) + c)%nat.
Proof. intros N c Hc. destruct (lt_eq_lt_dec i j) as [[L|E]|L]; [right|congruence|left]; nia. Qed.

Lemma read_ext (a b : PoseArr S) j : same_dims a b ->
  (forall i c, (c < pa_d a + 1)%nat -> pa_X a i (j * (pa_d a + 1) + c)%nat = pa_X b i (j * (pa_d a + 1) + c)%nat) -> same_pose a b j.
Proof.
  intros (R1 & D1 & N1 & _) E. unfold same_pose, same_read, pa_pose, pa_rot, pa_trans. rewrite <- R1, <- D1, <- N1. unfold check.
  destruct (Nat.ltb _ _); repeat split; auto; simpl; intros; auto.
  - apply E. lia.
  - apply E. lia.
Qed.

Ltac set_tac := let E := fresh in intros E; apply check_Ok in E; destruct E as [?Hn E]; apply require_Ok in E; destruct E as [?Hs E];
  apply has_size_eq in Hs; destruct Hs as [?S1 ?S2]; injection E as <-.

Theorem set_pose_spec (a a' : PoseArr S) i B : pa_set_pose a i B = Ok a' ->
  same_dims a a' /\ (i < pa_n a)%nat /\ reads (pa_pose a' i) B /\ forall j, j <> i -> same_pose a a' j.
Proof.
  set_tac. assert (Hi := Hn). apply Nat.ltb_lt in Hi. split; [unfold same_dims; simpl; auto|]. split; auto. split.
  - unfold reads, pa_pose. simpl pa_n. rewrite Hn. cbn [check pa_d pa_r pa_X]. split; [simpl; auto|]. split; [simpl; auto|].
    intros x y Hx Hy. cbn [Num.mat mblock mrows mcols] in *. rewrite Nat.add_0_l. apply sb_in; lia.
  - intros j Nj. apply read_ext; [unfold same_dims; simpl; auto|]. intros x c Hc. cbn [pa_X]. rewrite sb_out; auto. rewrite S2. apply col_neq; auto.
Qed.

Theorem set_rot_spec (a a' : PoseArr S) i B : pa_set_rot a i B = Ok a' ->
  same_dims a a' /\ (i < pa_n a)%nat /\ reads (pa_rot a' i) B /\ same_read (pa_trans a i) (pa_trans a' i) /\
  forall j, j <> i -> same_pose a a' j.
Proof.
  set_tac. assert (Hi := Hn). apply Nat.ltb_lt in Hi. split; [unfold same_dims; simpl; auto|]. split; auto. split; [|split].
  - unfold reads, pa_rot. simpl pa_n. rewrite Hn. cbn [check pa_d pa_r pa_X]. split; [simpl; auto|]. split; [simpl; auto|].
    intros x y Hx Hy. cbn [Num.mat mblock mrows mcols] in *. rewrite !Nat.add_0_l. apply sb_in; lia.
  - unfold same_read, pa_trans. simpl pa_n. rewrite Hn. cbn [check pa_d pa_r pa_X]. split; [simpl; auto|]. split; [simpl; auto|].
    intros x y Hx Hy. cbn [Num.mat mblock mrows mcols] in *. rewrite !Nat.add_0_l. symmetry. apply sb_out. lia.
  - intros j Nj. apply read_ext; [unfold same_dims; simpl; auto|]. intros x c Hc. cbn [pa_X]. rewrite sb_out; auto. rewrite S2.
    destruct (col_neq i j (pa_d a) ltac:(auto) c Hc); lia.
Qed.

Theorem set_trans_spec (a a' : PoseArr S) i B : pa_set_trans a i B = Ok a' ->
  same_dims a a' /\ (i < pa_n a)%nat /\ reads (pa_trans a' i) B /\ same_read (pa_rot a i) (pa_rot a' i) /\
  forall j, j <> i -> same_pose a a' j.
Proof.
  set_tac. assert (Hi := Hn). apply Nat.ltb_lt in Hi. split; [unfold same_dims; simpl; auto|]. split; auto. split; [|split].
  - unfold reads, pa_trans. simpl pa_n. rewrite Hn. cbn [check pa_d pa_r pa_X]. split; [simpl; auto|]. split; [simpl; auto|].
    intros x y Hx Hy. cbn [Num.mat mblock mrows mcols] in *. rewrite !Nat.add_0_l, Nat.add_assoc. apply sb_in; lia.
  - unfold same_read, pa_rot. simpl pa_n. rewrite Hn. cbn [check pa_d pa_r pa_X]. split; [simpl; auto|]. split; [simpl; auto|].
    intros x y Hx Hy. cbn [Num.mat mblock mrows mcols] in *. rewrite !Nat.add_0_l. symmetry. apply sb_out. lia.
  - intros j Nj. apply read_ext; [unfold same_dims; simpl; auto|]. intros x c Hc. cbn [pa_X]. rewrite sb_out; auto. rewrite S2.
    destruct (col_neq i j (pa_d a) ltac:(auto) c Hc); lia.
Qed.

Theorem set_defined (a : PoseArr S) i : (i < pa_n a)%nat ->
  (forall B, mrows B = pa_r a -> mcols B = (pa_d a + 1)%nat -> exists a', pa_set_pose a i B = Ok a') /\
  (forall B, mrows B = pa_r a -> mcols B = pa_d a -> exists a', pa_set_rot a i B = Ok a') /\
  (forall B, mrows B = pa_r a -> mcols B = 1%nat -> exists a', pa_set_trans a i B = Ok a').
Proof.
  intros Hi. unfold pa_set_pose, pa_set_rot, pa_set_trans. rewrite (proj2 (Nat.ltb_lt _ _) Hi). cbn [check].
  repeat split; intros B B1 B2; rewrite (proj2 (has_size_eq B _ _) (conj B1 B2)); cbn [require]; eauto.
Qed.

Theorem out_of_range (a : PoseArr S) i B : (pa_n a <= i)%nat ->
  pa_pose a i = Abort /\ pa_rot a i = Abort /\ pa_trans a i = Abort /\
  pa_set_pose a i B = Abort /\ pa_set_rot a i B = Abort /\ pa_set_trans a i B = Abort.
Proof.
  intros Hi. unfold pa_pose, pa_rot, pa_trans, pa_set_pose, pa_set_rot, pa_set_trans.
  rewrite (proj2 (Nat.ltb_ge _ _) Hi). repeat split; reflexivity.
Qed.

(** The pose is its rotation followed by its translation. *)
Theorem pose_parts (a : PoseArr S) i P Q t : pa_pose a i = Ok P -> pa_rot a i = Ok Q -> pa_trans a i = Ok t ->
  forall x c, (c < pa_d a + 1)%nat -> P x c = if Nat.ltb c (pa_d a) then Q x c else t x O.
Proof.
  unfold pa_pose, pa_rot, pa_trans. intros EP EQ ET. apply check_Ok in EP, EQ, ET.
  destruct EP as [_ EP], EQ as [_ EQ], ET as [_ ET]. injection EP as <-. injection EQ as <-. injection ET as <-.
  intros x c Hc. cbn [Num.mat mblock]. destruct (Nat.ltb_spec c (pa_d a)); rewrite ?Nat.add_0_l; auto. f_equal. lia.
Qed.

Theorem pose_layout (a : PoseArr S) i P : pa_pose a i = Ok P ->
  mrows P = pa_r a /\ mcols P = (pa_d a + 1)%nat /\
  forall x c, (c < pa_d a + 1)%nat -> P x c = pa_X a x (i * (pa_d a + 1) + c)%nat.
Proof.
  unfold pa_pose. intros EP. apply check_Ok in EP. destruct EP as [_ EP]. injection EP as <-.
  split; [reflexivity|]. split; [reflexivity|]. intros x c _. cbn [Num.mat mblock]. f_equal.
Qed.

(** ** Fresh arrays *)
Lemma foldM_seq_inv {A} (P : nat -> A -> Prop) (f : A -> nat -> res A) a0 n :
  P O a0 -> (forall k a, (k < n)%nat -> P k a -> exists a', f a k = Ok a' /\ P (Datatypes.S k) a') ->
  forall k, (k <= n)%nat -> exists a, foldM f a0 (seq 0 k) = Ok a /\ P k a.
Proof.
  intros H0 Hs. induction k as [|k IH]; intros Hk; [exists a0; auto|].
  destruct (IH ltac:(lia)) as (a & E & Pa). rewrite seq_S, foldM_app, E. cbn [bind Nat.add foldM].
  destruct (Hs k a ltac:(lia) Pa) as (a' & -> & Pa'). exists a'. auto.
Qed.

Definition blank (r d n : nat) (k : nat) (a : PoseArr S) : Prop :=
  pa_r a = r /\ pa_d a = d /\ pa_n a = n /\ mrows (pa_X a) = r /\ mcols (pa_X a) = ((d + 1) * n)%nat /\
  forall i x c, (i < k)%nat -> (x < r)%nat -> (c < d + 1)%nat ->
    pa_X a x (i * (d + 1) + c)%nat = if Nat.eqb x c && Nat.ltb c d then n1 else n0.

Lemma pa_new_spec r d n : (d <= r)%nat -> exists a, pa_new r d n = Ok a /\ blank r d n n a.
Proof.
  intros Hd. unfold pa_new. rewrite (proj2 (Nat.leb_le _ _) Hd). cbn [require].
  apply (foldM_seq_inv (blank r d n) _ _ n); [|clear Hd|lia].
  - unfold blank; simpl. repeat (split; auto). intros; lia.
  - intros k a Hk (R1 & D1 & N1 & M1 & C1 & E).
    destruct (set_defined a k ltac:(lia)) as (_ & Hr & _).
    set (Y := msetblock (mzero r d) 0 0 (mident d)).
    destruct (Hr Y) as [a1 E1]; [simpl; auto|simpl; auto|]. rewrite E1. cbn [bind].
    assert (Q1 := E1). unfold pa_set_rot in Q1. apply check_Ok in Q1. destruct Q1 as [_ Q1]. apply require_Ok in Q1. destruct Q1 as [_ Q1].
    injection Q1 as <-.
    match goal with |- exists a', pa_set_trans ?A _ _ = _ /\ _ => set (a1 := A) in * end.
    destruct (set_defined a1 k ltac:(simpl; lia)) as (_ & _ & Ht).
    destruct (Ht (mzero r 1)) as [a2 E2]; [simpl; auto|simpl; auto|]. rewrite E2. exists a2. split; auto.
    unfold pa_set_trans in E2. apply check_Ok in E2. destruct E2 as [_ E2]. apply require_Ok in E2. destruct E2 as [_ E2]. injection E2 as <-.
    unfold blank. cbn [pa_r pa_d pa_n pa_X a1]. repeat (split; [simpl; auto|]).
    intros i x c Hi Hx Hc. unfold a1. cbn [pa_X pa_d]. rewrite D1.
    destruct (Nat.eq_dec i k) as [->|Ni].
    + destruct (Nat.eq_dec c d) as [->|Nc].
      * rewrite (Nat.ltb_irrefl d), andb_false_r. rewrite sb_in0 by (simpl; lia). reflexivity.
      * rewrite sb_out by lia. rewrite sb_in by (simpl; lia). rewrite (proj2 (Nat.ltb_lt c d)) by lia. rewrite andb_true_r.
        unfold Y. simpl. rewrite !Nat.sub_0_r. destruct (Nat.ltb_spec x d).
        -- rewrite (proj2 (Nat.ltb_lt c d)) by lia. reflexivity.
        -- simpl. destruct (Nat.eqb_spec x c); auto. lia.
    + rewrite sb_out.
      2:{ destruct (col_neq k i d ltac:(auto) c Hc); simpl; lia. }
      rewrite sb_out.
      2:{ destruct (col_neq k i d ltac:(auto) c Hc); simpl; lia. }
      apply E; auto. lia.
Qed.

Lemma pa_setData_spec (a : PoseArr S) X : mrows X = pa_r a -> mcols X = ((pa_d a + 1) * pa_n a)%nat ->
  pa_setData a X = Ok (mkPA (pa_r a) (pa_d a) (pa_n a) X).
Proof. intros A B. unfold pa_setData. rewrite A, B, !Nat.eqb_refl. reflexivity. Qed.

Lemma pose_of_mx_spec (T : Mx S) d : mrows T = d -> mcols T = (d + 1)%nat -> pose_of_mx T = Ok (mkPA d d 1 T).
Proof.
  intros A B. unfold pose_of_mx, pose_identity. rewrite A. destruct (pa_new_spec d d 1 (le_n d)) as (p & -> & (R1 & D1 & N1 & _)).
  cbn [bind]. rewrite D1, B, !Nat.eqb_refl. cbn [check].
  rewrite (pa_setData_spec p T) by (rewrite ?R1, ?D1, ?N1; lia). rewrite R1, D1, N1. reflexivity.
Qed.
End Arr.

(** ** Pose algebra over the reals *)
Local Open Scope R_scope.

Lemma rigid_wf d p : rigid d p -> wf1 d p.
Proof. intros (A & B & C & D & E & _). repeat split; auto. Qed.

Lemma pose_matrix_spec d p : wf1 d p -> exists A, pose_matrix p = Ok A /\ sized (d + 1) (d + 1) A /\
  forall i j, (i < d + 1)%nat -> (j < d + 1)%nat -> A i j = hom d p i j.
Proof.
  intros (R1 & D1 & N1 & M1 & C1). unfold pose_matrix, pa_rot, pa_trans. rewrite N1. cbn [Nat.ltb Nat.leb check bind].
  eexists. split; [reflexivity|]. rewrite R1, D1. split; [split; reflexivity|].
  intros i j Hi Hj. unfold hom. simpl. rewrite !Nat.sub_0_r.
  destruct (Nat.ltb_spec i d) as [Li|Li]; simpl.
  - destruct (Nat.leb_spec d j) as [Lj|Lj]; simpl.
    + rewrite (proj2 (Nat.ltb_lt j (d + 1))) by lia. simpl. f_equal. lia.
    + rewrite (proj2 (Nat.ltb_lt j d)) by lia. reflexivity.
  - reflexivity.
Qed.

Lemma pose_mul_spec d p q : wf1 d p -> wf1 d q -> exists s, pose_mul p q = Ok s /\ wf1 d s /\
  forall i j, (i < d)%nat -> (j < d + 1)%nat ->
    pa_X s i j = rsum d (fun k => pa_X p i k * pa_X q k j) + (if Nat.eqb j d then pa_X p i d else 0).
Proof.
  intros Hp Hq. destruct (pose_matrix_spec d p Hp) as (A & EA & [A1 A2] & HA).
  destruct (pose_matrix_spec d q Hq) as (B & EB & [B1 B2] & HB).
  unfold pose_mul. pose proof Hp as (_ & D1 & _). pose proof Hq as (_ & D2 & _). rewrite D1, D2, Nat.eqb_refl. cbn [check].
  rewrite EA, EB. cbn [bind]. rewrite (pose_of_mx_spec _ d) by reflexivity.
  eexists. split; [reflexivity|]. split; [repeat split; auto|].
  intros i j Hi Hj. cbn [pa_X mblock Num.mat mmul]. rewrite !Nat.add_0_l, A2, Nat.add_1_r, rsum_S.
  f_equal.
  - apply rsum_ext. intros k Hk. numr. rewrite HA, HB by lia. unfold hom. rewrite (proj2 (Nat.ltb_lt i d)), (proj2 (Nat.ltb_lt k d)) by lia. reflexivity.
  - numr. rewrite HA, HB by lia. unfold hom. rewrite (proj2 (Nat.ltb_lt i d)) by lia. rewrite Nat.ltb_irrefl.
    rewrite (Nat.eqb_sym d j). destruct (Nat.eqb j d); ring.
Qed.

Lemma pose_eq_intro d p q : wf1 d p -> wf1 d q -> (forall i j, (i < d)%nat -> (j < d + 1)%nat -> pa_X p i j = pa_X q i j) -> pose_eq p q.
Proof.
  intros (A1 & A2 & A3 & A4 & A5) (B1 & B2 & B3 & B4 & B5) E. unfold pose_eq, mx_eq. rewrite A4, A5.
  repeat split; try congruence. auto.
Qed.

Theorem mul_act : forall d p q s, wf1 d p -> wf1 d q -> pose_mul p q = Ok s ->
  forall x i, (i < d)%nat -> act d s x i = act d p (act d q x) i.
Proof.
  intros d p q s Hp Hq Es x i Hi. destruct (pose_mul_spec d p q Hp Hq) as (s' & Es' & _ & E).
  rewrite Es' in Es. injection Es as ->. unfold act.
  rewrite (rsum_ext d (fun k => pa_X s i k * x k) (fun k => rsum d (fun l => pa_X p i l * (pa_X q l k * x k)))).
  2:{ intros k Hk. rewrite E by lia. rewrite (proj2 (Nat.eqb_neq k d)) by lia. rewrite Rplus_0_r, <- rsum_scal_r. apply rsum_ext. intros; ring. }
  rewrite E by lia. rewrite Nat.eqb_refl. rewrite rsum_swap.
  rewrite (rsum_ext d (fun k => pa_X p i k * (rsum d (fun k0 => pa_X q k k0 * x k0) + pa_X q k d))
            (fun k => rsum d (fun l => pa_X p i k * (pa_X q k l * x l)) + pa_X p i k * pa_X q k d)).
  2:{ intros k _. rewrite rsum_scal. ring. }
  rewrite rsum_add. ring.
Qed.

Theorem mul_assoc_pose : forall d p q s, wf1 d p -> wf1 d q -> wf1 d s ->
  exists pq qs x y, pose_mul p q = Ok pq /\ pose_mul q s = Ok qs /\ pose_mul pq s = Ok x /\ pose_mul p qs = Ok y /\ pose_eq x y.
Proof.
  intros d p q s Hp Hq Hs.
  destruct (pose_mul_spec d p q Hp Hq) as (pq & E1 & W1 & V1).
  destruct (pose_mul_spec d q s Hq Hs) as (qs & E2 & W2 & V2).
  destruct (pose_mul_spec d pq s W1 Hs) as (x & E3 & W3 & V3).
  destruct (pose_mul_spec d p qs Hp W2) as (y & E4 & W4 & V4).
  exists pq, qs, x, y. do 4 (split; [auto|]). apply (pose_eq_intro d); auto.
  intros i j Hi Hj. rewrite V3, V4 by auto.
  rewrite (rsum_ext d (fun k => pa_X pq i k * pa_X s k j) (fun k => rsum d (fun l => pa_X p i l * (pa_X q l k * pa_X s k j)))).
  2:{ intros k Hk. rewrite V1 by lia. rewrite (proj2 (Nat.eqb_neq k d)) by lia. rewrite Rplus_0_r, <- rsum_scal_r. apply rsum_ext. intros; ring. }
  rewrite rsum_swap.
  rewrite (rsum_ext d (fun k => pa_X p i k * pa_X qs k j)
    (fun k => rsum d (fun l => pa_X p i k * (pa_X q k l * pa_X s l j)) + pa_X p i k * (if Nat.eqb j d then pa_X q k d else 0))).
  2:{ intros k Hk. rewrite V2 by lia. rewrite rsum_scal. ring. }
  rewrite rsum_add.
  destruct (Nat.eqb_spec j d) as [->|Nj].
  - rewrite (V1 i d) by lia. rewrite Nat.eqb_refl. ring.
  - rewrite (rsum_zero' d (fun k => pa_X p i k * 0)); [ring|intros; ring].
Qed.

Lemma pose_identity_spec d : exists e : PoseArr R, pose_identity d = Ok e /\ wf1 d e /\ forall i j, (i < d)%nat -> (j < d + 1)%nat -> pa_X e i j = idm i j.
Proof.
  unfold pose_identity. destruct (pa_new_spec (S := R) d d 1 (le_n d)) as (a & E & (A & B & C & D & F & V)).
  exists a. split; auto. split; [repeat split; auto; lia|]. intros i j Hi Hj.
  pose proof (V 0%nat i j) as W. simpl in W. rewrite W by lia. unfold idm.
  destruct (Nat.eqb_spec i j) as [Eij|]; simpl; auto. rewrite (proj2 (Nat.ltb_lt j d)) by lia. reflexivity.
Qed.

Theorem mul_unit : forall d p e, wf1 d p -> pose_identity d = Ok e ->
  exists x y, pose_mul p e = Ok x /\ pose_mul e p = Ok y /\ pose_eq x p /\ pose_eq y p.
Proof.
  intros d p e Hp Ee. destruct (pose_identity_spec d) as (e' & Ee' & We & Ve). rewrite Ee' in Ee. injection Ee as ->.
  destruct (pose_mul_spec d p e Hp We) as (x & E1 & W1 & V1). destruct (pose_mul_spec d e p We Hp) as (y & E2 & W2 & V2).
  exists x, y. do 2 (split; [auto|]). split; apply (pose_eq_intro d); auto; intros i j Hi Hj.
  - rewrite V1 by auto. destruct (Nat.eqb_spec j d) as [->|Nj].
    + rewrite rsum_zero'; [ring|]. intros k Hk. rewrite Ve by lia. unfold idm. rewrite (proj2 (Nat.eqb_neq k d)) by lia. ring.
    + rewrite (rsum_ext d _ (fun k => pa_X p i k * idm k j)) by (intros; rewrite Ve by lia; auto).
      change (rsum d (fun k => pa_X p i k * idm k j)) with (mul d (pa_X p) idm i j). rewrite idm_r by lia. ring.
  - rewrite V2 by auto. rewrite (rsum_ext d _ (fun k => idm i k * pa_X p k j)) by (intros; rewrite Ve by lia; auto).
    change (rsum d (fun k => idm i k * pa_X p k j)) with (mul d idm (pa_X p) i j). rewrite idm_l by lia.
    rewrite (Ve i d) by lia. unfold idm. rewrite (proj2 (Nat.eqb_neq i d)) by lia. destruct (Nat.eqb j d); ring.
Qed.

Theorem identity_rigid : forall d, exists e, pose_identity d = Ok e /\ rigid d e /\ forall x i, (i < d)%nat -> act d e x i = x i.
Proof.
  intros d. destruct (pose_identity_spec d) as (e & Ee & We & Ve). exists e. split; auto. split.
  - destruct We as (A & B & C & D & F). repeat (split; auto).
    + apply (orth_ext d d idm); [|apply orth_idm]. intros; symmetry; apply Ve; lia.
    + rewrite <- (det_idm d). apply det_ext. intros i j Hi Hj. apply Ve; lia.
  - intros x i Hi. unfold act. rewrite (rsum_ext d _ (fun k => if Nat.eqb i k then x k else 0)).
    + rewrite (rsum_delta' d i x Hi), Ve by lia. unfold idm. rewrite (proj2 (Nat.eqb_neq i d)) by lia. ring.
    + intros k Hk. rewrite Ve by lia. unfold idm. destruct (Nat.eqb i k); ring.
Qed.

Theorem mul_rigid : forall d p q, rigid d p -> rigid d q -> exists s, pose_mul p q = Ok s /\ rigid d s.
Proof.
  intros d p q Hp Hq. destruct (pose_mul_spec d p q (rigid_wf d p Hp) (rigid_wf d q Hq)) as (s & E & (A & B & C & D & F) & V).
  exists s. split; auto. repeat (split; auto).
  - apply (orth_ext d d (mul d (pa_X p) (pa_X q))).
    + intros i j Hi Hj. rewrite V by lia. rewrite (proj2 (Nat.eqb_neq j d)) by lia. unfold mul. ring.
    + apply (orth_prod d d d); [apply Hp|apply Hq].
  - rewrite (det_ext d _ (mul d (pa_X p) (pa_X q))).
    + rewrite det_mul. destruct Hp as (_ & _ & _ & _ & _ & _ & ->), Hq as (_ & _ & _ & _ & _ & _ & ->). ring.
    + intros i j Hi Hj. rewrite V by lia. rewrite (proj2 (Nat.eqb_neq j d)) by lia. unfold mul. ring.
Qed.

(** ** Inverse *)
(** The explicit inverse R^T, -R^T t. *)
Definition einv (d : nat) (p : PoseArr R) (i j : nat) : R :=
  if Nat.eqb j d then - rsum d (fun k => pa_X p k i * pa_X p k d) else pa_X p j i.

Lemma hom_left d p : orthonormal d d (pa_X p) -> forall i j, (i < d)%nat -> (j < d + 1)%nat ->
  rsum d (fun k => pa_X p k i * hom d p k j) + - rsum d (fun k => pa_X p k i * pa_X p k d) * hom d p d j = if Nat.eqb i j then 1 else 0.
Proof.
  intros O i j Hi Hj. rewrite (rsum_ext d _ (fun k => pa_X p k i * pa_X p k j)).
  2:{ intros k Hk. unfold hom. rewrite (proj2 (Nat.ltb_lt k d)) by lia. reflexivity. }
  unfold hom. rewrite Nat.ltb_irrefl. destruct (Nat.eq_dec j d) as [->|Nj].
  - rewrite Nat.eqb_refl. rewrite (proj2 (Nat.eqb_neq i d)) by lia. ring.
  - rewrite (proj2 (Nat.eqb_neq d j)) by lia. rewrite (O i j Hi ltac:(lia)). ring.
Qed.

Lemma inverse_entries minv d p : wf1 d p -> orthonormal d d (pa_X p) -> inv_at minv d p ->
  exists s, pose_inverse minv p = Ok s /\ wf1 d s /\ forall i j, (i < d)%nat -> (j < d + 1)%nat -> pa_X s i j = einv d p i j.
Proof.
  intros W O Hi. destruct (pose_matrix_spec d p W) as (A & EA & SA & VA).
  destruct (Hi A SA VA) as (I1 & I2 & I3).
  unfold pose_inverse. rewrite EA. cbn [bind]. pose proof W as (_ & D1 & _). rewrite D1. rewrite (pose_of_mx_spec _ d) by reflexivity.
  eexists. split; [reflexivity|]. split; [repeat split|].
  intros i j Li Lj. cbn [pa_X mblock Num.mat]. rewrite !Nat.add_0_l.
  set (B := minv A) in *.
  (* L A = first rows of identity with L = [R^T, -R^T t]; so L = L (A B) = B *)
  set (L := fun k => if Nat.eqb k d then - rsum d (fun l => pa_X p l i * pa_X p l d) else pa_X p k i).
  assert (LA : forall k, (k < d + 1)%nat -> rsum (d + 1) (fun l => L l * A l k) = if Nat.eqb i k then 1 else 0).
  { intros k Hk. rewrite Nat.add_1_r, rsum_S. rewrite <- (hom_left d p O i k Li Hk). f_equal.
    - apply rsum_ext. intros l Hl. unfold L. rewrite (proj2 (Nat.eqb_neq l d)) by lia. rewrite VA by lia. reflexivity.
    - unfold L. rewrite Nat.eqb_refl. rewrite VA by lia. reflexivity. }
  transitivity (rsum (d + 1) (fun k => rsum (d + 1) (fun l => L l * A l k) * B k j)).
  { rewrite (rsum_ext (d + 1) _ (fun k => if Nat.eqb i k then B k j else 0)).
    - rewrite (rsum_delta' (d + 1) i (fun k => B k j)) by lia. reflexivity.
    - intros k Hk. rewrite LA by auto. destruct (Nat.eqb i k); ring. }
  rewrite (rsum_ext (d + 1) _ (fun k => rsum (d + 1) (fun l => L l * (A l k * B k j)))).
  2:{ intros k _. rewrite <- rsum_scal_r. apply rsum_ext. intros; ring. }
  rewrite rsum_swap. rewrite (rsum_ext (d + 1) _ (fun l => if Nat.eqb l j then L l else 0)).
  - rewrite (rsum_delta (d + 1) j L Lj). unfold L, einv. reflexivity.
  - intros l Hl. rewrite rsum_scal. rewrite (proj1 (I3 l j Hl Lj)). destruct (Nat.eqb l j); ring.
Qed.

Theorem inverse_laws : forall minv d p, rigid d p -> inv_at minv d p ->
  exists s x y e, pose_inverse minv p = Ok s /\ rigid d s /\ pose_identity d = Ok e /\
    pose_mul p s = Ok x /\ pose_eq x e /\ pose_mul s p = Ok y /\ pose_eq y e.
Proof.
  intros minv d p Hp Hi. assert (W := rigid_wf d p Hp). pose proof Hp as (_ & _ & _ & _ & _ & O & D).
  destruct (inverse_entries minv d p W O Hi) as (s & Es & Ws & Vs).
  destruct (pose_identity_spec d) as (e & Ee & We & Ve).
  destruct (pose_mul_spec d p s W Ws) as (x & E1 & W1 & V1). destruct (pose_mul_spec d s p Ws W) as (y & E2 & W2 & V2).
  pose proof (orth_square d _ O) as O'.
  exists s, x, y, e. split; auto. split.
  { destruct Ws as (A1 & A2 & A3 & A4 & A5). repeat (split; auto).
    - apply (orth_ext d d (tr (pa_X p))); auto. intros i j Hi' Hj'. rewrite Vs by lia. unfold einv, tr. rewrite (proj2 (Nat.eqb_neq j d)) by lia. reflexivity.
    - rewrite <- D, <- (det_tr d (pa_X p)). apply det_ext. intros i j Hi' Hj'. rewrite Vs by lia. unfold einv, tr. rewrite (proj2 (Nat.eqb_neq j d)) by lia. reflexivity. }
  split; auto. split; auto. split; [|split; auto]; apply (pose_eq_intro d); auto; intros i j Li Lj.
  - rewrite V1, Ve by auto. unfold idm. destruct (Nat.eqb_spec j d) as [->|Nj].
    + rewrite (proj2 (Nat.eqb_neq i d)) by lia.
      rewrite (rsum_ext d _ (fun k => rsum d (fun l => - pa_X p l d * (pa_X p i k * pa_X p l k)))).
      2:{ intros k Hk. rewrite Vs by lia. unfold einv. rewrite Nat.eqb_refl, <- rsum_opp, <- rsum_scal. apply rsum_ext. intros; ring. }
      rewrite rsum_swap. rewrite (rsum_ext d _ (fun l => if Nat.eqb i l then - pa_X p l d else 0)).
      * rewrite (rsum_delta' d i (fun l => - pa_X p l d) Li). ring.
      * intros l Hl. rewrite rsum_scal. pose proof (O' i l Li Hl) as Q. unfold tr in Q. rewrite Q. destruct (Nat.eqb i l); ring.
    + rewrite (rsum_ext d _ (fun k => tr (pa_X p) k i * tr (pa_X p) k j)).
      * rewrite (O' i j Li ltac:(lia)). ring.
      * intros k Hk. rewrite Vs by lia. unfold einv, tr. rewrite (proj2 (Nat.eqb_neq j d)) by lia. reflexivity.
  - rewrite V2, Ve by auto. rewrite (rsum_ext d _ (fun k => pa_X p k i * pa_X p k j)).
    2:{ intros k Hk. rewrite Vs by lia. unfold einv. rewrite (proj2 (Nat.eqb_neq k d)) by lia. reflexivity. }
    destruct (Nat.eqb_spec j d) as [->|Nj].
    + rewrite Vs by lia. unfold einv, idm. rewrite Nat.eqb_refl. rewrite (proj2 (Nat.eqb_neq i d)) by lia. ring.
    + rewrite (O i j Li ltac:(lia)). unfold idm. ring.
Qed.
