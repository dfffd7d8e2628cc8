(** Finite sums over the reals ([nsum], [nsumL] of Num.v at the instance [NumR]). *)
From Coq Require Import List Arith Bool Lia Reals Lra ZArith.
From Verif Require Import Num.
Import ListNotations.
Local Open Scope R_scope.

Ltac numr := cbn [n0 n1 nadd nsub nmul ndiv nopp nsqrt nltb nleb neqb nofZ NumR].
Ltac numr_in H := cbn [n0 n1 nadd nsub nmul ndiv nopp nsqrt nltb nleb neqb nofZ NumR] in H.

Notation rsum := (@nsum R NumR).
Notation rsumL := (@nsumL R NumR _).

Lemma rsum_0 f : rsum 0 f = 0.
Proof. reflexivity. Qed.
Lemma rsum_S n f : rsum (S n) f = rsum n f + f n.
Proof. reflexivity. Qed.

Lemma rsum_ext n f g : (forall i, (i < n)%nat -> f i = g i) -> rsum n f = rsum n g.
Proof.
  induction n; intros H; rewrite ?rsum_0, ?rsum_S; auto. rewrite IHn by (intros; apply H; lia).
  rewrite H by lia. reflexivity.
Qed.

Lemma rsum_zero n : rsum n (fun _ => 0) = 0.
Proof. induction n; rewrite ?rsum_0, ?rsum_S; lra. Qed.

Lemma rsum_zero' n f : (forall i, (i < n)%nat -> f i = 0) -> rsum n f = 0.
Proof. intros H. rewrite (rsum_ext n f (fun _ => 0)); auto. apply rsum_zero. Qed.

Lemma rsum_add n f g : rsum n (fun i => f i + g i) = rsum n f + rsum n g.
Proof. induction n; rewrite ?rsum_0, ?rsum_S; lra. Qed.

Lemma rsum_sub n f g : rsum n (fun i => f i - g i) = rsum n f - rsum n g.
Proof. induction n; rewrite ?rsum_0, ?rsum_S; lra. Qed.

Lemma rsum_opp n f : rsum n (fun i => - f i) = - rsum n f.
Proof. induction n; rewrite ?rsum_0, ?rsum_S; lra. Qed.

Lemma rsum_scal n a f : rsum n (fun i => a * f i) = a * rsum n f.
Proof. induction n; rewrite ?rsum_0, ?rsum_S; [lra|]. rewrite IHn. lra. Qed.

Lemma rsum_scal_r n a f : rsum n (fun i => f i * a) = rsum n f * a.
Proof. induction n; rewrite ?rsum_0, ?rsum_S; [lra|]. rewrite IHn. lra. Qed.

Lemma rsum_const n a : rsum n (fun _ => a) = INR n * a.
Proof. induction n; rewrite ?rsum_0, ?rsum_S; [simpl; lra|]. rewrite IHn, S_INR. lra. Qed.

Lemma rsum_swap n m f : rsum n (fun i => rsum m (fun j => f i j)) = rsum m (fun j => rsum n (fun i => f i j)).
Proof.
  induction n; rewrite ?rsum_0, ?rsum_S.
  - rewrite rsum_zero'; auto.
  - rewrite IHn, <- rsum_add. apply rsum_ext. intros. rewrite rsum_S. reflexivity.
Qed.

Lemma rsum_plus n m f : rsum (n + m) f = rsum n f + rsum m (fun i => f (n + i)%nat).
Proof.
  induction m.
  - rewrite Nat.add_0_r, rsum_0. lra.
  - rewrite Nat.add_succ_r, !rsum_S, IHm. lra.
Qed.

(** A range of length n*m is n blocks of length m. *)
Lemma rsum_mult n m f : rsum (n * m) f = rsum n (fun i => rsum m (fun j => f (i * m + j)%nat)).
Proof.
  induction n; [reflexivity|].
  replace (S n * m)%nat with (n * m + m)%nat by lia. rewrite rsum_plus, IHn, rsum_S. reflexivity.
Qed.

Lemma rsum_delta n i f : (i < n)%nat -> rsum n (fun k => if Nat.eqb k i then f k else 0) = f i.
Proof.
  intros H. induction n; [lia|]. rewrite rsum_S. destruct (Nat.eqb_spec n i).
  - subst. rewrite rsum_zero'; [lra|]. intros k Hk. destruct (Nat.eqb_spec k i); [lia|reflexivity].
  - rewrite IHn by lia. lra.
Qed.
Lemma rsum_delta' n i f : (i < n)%nat -> rsum n (fun k => if Nat.eqb i k then f k else 0) = f i.
Proof.
  intros H. rewrite <- (rsum_delta n i f H). apply rsum_ext. intros. rewrite Nat.eqb_sym. reflexivity.
Qed.

Lemma rsum_nonneg n f : (forall i, (i < n)%nat -> 0 <= f i) -> 0 <= rsum n f.
Proof.
  induction n; intros H; rewrite ?rsum_0, ?rsum_S; [lra|].
  assert (0 <= f n) by (apply H; lia). assert (0 <= rsum n f) by (apply IHn; intros; apply H; lia). lra.
Qed.

Lemma rsum_le n f g : (forall i, (i < n)%nat -> f i <= g i) -> rsum n f <= rsum n g.
Proof.
  intros H. assert (0 <= rsum n (fun i => g i - f i)).
  { apply rsum_nonneg. intros i Hi. specialize (H i Hi). lra. }
  rewrite rsum_sub in H0. lra.
Qed.

Lemma rsum_term_le n f i : (i < n)%nat -> (forall k, (k < n)%nat -> 0 <= f k) -> f i <= rsum n f.
Proof.
  intros Hi H. induction n; [lia|]. rewrite rsum_S.
  assert (0 <= f n) by (apply H; lia).
  assert (0 <= rsum n f) by (apply rsum_nonneg; intros; apply H; lia).
  destruct (Nat.eq_dec i n) as [->|]; [lra|].
  assert (f i <= rsum n f) by (apply IHn; [lia|intros; apply H; lia]). lra.
Qed.

Lemma rsum_nonneg_zero n f : (forall i, (i < n)%nat -> 0 <= f i) -> rsum n f = 0 ->
  forall i, (i < n)%nat -> f i = 0.
Proof.
  intros H E i Hi. pose proof (rsum_term_le n f i Hi H). pose proof (H i Hi). lra.
Qed.

Lemma rsum_sq_pos n f i : (i < n)%nat -> f i <> 0 -> 0 < rsum n (fun k => f k * f k).
Proof.
  intros Hi Hf. apply Rlt_le_trans with (f i * f i).
  - nra.
  - apply (rsum_term_le n (fun k => f k * f k)); auto. intros. nra.
Qed.

(** Lists *)
Lemma rsumL_shift {A} (f : A -> R) l : forall s, fold_left (fun s a => s + f a) l s = s + nsumL f l.
Proof.
  unfold nsumL. numr. induction l as [|a l IH]; intros s; simpl; [lra|].
  rewrite IH, (IH (0 + f a)). lra.
Qed.
Lemma rsumL_nil {A} (f : A -> R) : nsumL f [] = 0.
Proof. reflexivity. Qed.
Lemma rsumL_cons {A} (f : A -> R) a l : nsumL f (a :: l) = f a + nsumL f l.
Proof. unfold nsumL at 1. simpl. numr. rewrite rsumL_shift. lra. Qed.
Lemma rsumL_app {A} (f : A -> R) l1 l2 : nsumL f (l1 ++ l2) = nsumL f l1 + nsumL f l2.
Proof.
  induction l1 as [|a l IH]; simpl; [rewrite rsumL_nil; lra|]. rewrite !rsumL_cons, IH. lra.
Qed.
Lemma rsumL_map {A B} (g : A -> B) (f : B -> R) l : nsumL f (map g l) = nsumL (fun a => f (g a)) l.
Proof. induction l as [|a l IH]; simpl; [reflexivity|]. rewrite !rsumL_cons, IH. reflexivity. Qed.
Lemma rsumL_ext {A} (f g : A -> R) l : (forall a, In a l -> f a = g a) -> nsumL f l = nsumL g l.
Proof.
  induction l as [|a l IH]; intros H; [reflexivity|]. rewrite !rsumL_cons, IH, H; auto with datatypes.
Qed.
Lemma rsumL_zero {A} (f : A -> R) l : (forall a, In a l -> f a = 0) -> nsumL f l = 0.
Proof.
  induction l as [|a l IH]; intros H; [reflexivity|]. rewrite rsumL_cons, IH, H; auto with datatypes. lra.
Qed.
Lemma rsumL_add {A} (f g : A -> R) l : nsumL (fun a => f a + g a) l = nsumL f l + nsumL g l.
Proof.
  induction l as [|a l IH]; [rewrite !rsumL_nil; lra|]. rewrite !rsumL_cons, IH. lra.
Qed.
Lemma rsumL_sub {A} (f g : A -> R) l : nsumL (fun a => f a - g a) l = nsumL f l - nsumL g l.
Proof.
  induction l as [|a l IH]; [rewrite !rsumL_nil; lra|]. rewrite !rsumL_cons, IH. lra.
Qed.
Lemma rsumL_scal {A} c (f : A -> R) l : nsumL (fun a => c * f a) l = c * nsumL f l.
Proof.
  induction l as [|a l IH]; [rewrite !rsumL_nil; lra|]. rewrite !rsumL_cons, IH. lra.
Qed.
Lemma rsumL_flat_map {A B} (g : A -> list B) (f : B -> R) l :
  nsumL f (flat_map g l) = nsumL (fun a => nsumL f (g a)) l.
Proof. induction l as [|a l IH]; simpl; [reflexivity|]. rewrite rsumL_app, rsumL_cons, IH. reflexivity. Qed.
Lemma rsumL_seq f n : forall s, nsumL f (seq s n) = rsum n (fun i => f (s + i)%nat).
Proof.
  induction n; intros s; [reflexivity|].
  replace (S n) with (n + 1)%nat by lia. rewrite seq_app, rsumL_app, IHn.
  simpl. rewrite rsumL_cons, rsumL_nil. replace (n + 1)%nat with (S n) by lia. rewrite rsum_S. lra.
Qed.
Lemma rsumL_seq0 f n : nsumL f (seq 0 n) = rsum n f.
Proof. rewrite rsumL_seq. apply rsum_ext. reflexivity. Qed.
Lemma rsumL_rsum {A} (f : A -> nat -> R) l n :
  nsumL (fun a => rsum n (f a)) l = rsum n (fun i => nsumL (fun a => f a i) l).
Proof.
  induction l as [|a l IH].
  - rewrite rsumL_nil, rsum_zero'; auto.
  - rewrite rsumL_cons, IH, <- rsum_add. apply rsum_ext. intros. rewrite rsumL_cons. reflexivity.
Qed.
Lemma rsumL_nonneg {A} (f : A -> R) l : (forall a, In a l -> 0 <= f a) -> 0 <= nsumL f l.
Proof.
  induction l as [|a l IH]; intros H; [rewrite rsumL_nil; lra|]. rewrite rsumL_cons.
  assert (0 <= f a) by (apply H; left; auto).
  assert (0 <= nsumL f l) by (apply IH; intros; apply H; right; auto). lra.
Qed.
Lemma rsumL_filter {A} (p : A -> bool) (f : A -> R) l :
  nsumL f (filter p l) = nsumL (fun a => if p a then f a else 0) l.
Proof.
  induction l as [|a l IH]; [reflexivity|]. simpl. rewrite rsumL_cons. destruct (p a).
  - rewrite rsumL_cons, IH. reflexivity.
  - rewrite IH. lra.
Qed.
