(** Determinants of real matrices given as functions, by expansion along the
    first row; multiplicativity, transposition, and singular matrices. *)
From Coq Require Import List Arith Bool Lia Reals Lra.
From Verif Require Import Num RSum.
Local Open Scope R_scope.

Notation mat := (nat -> nat -> R).

(** The k-th index different from j. *)
Definition skip (j k : nat) : nat := if Nat.ltb k j then k else S k.
Definition minor (j : nat) (A : mat) : mat := fun i k => A (S i) (skip j k).

Fixpoint sgn (n : nat) : R := match n with O => 1 | S m => - sgn m end.

Fixpoint det (n : nat) (A : mat) : R :=
  match n with
  | O => 1
  | S m => rsum (S m) (fun j => sgn j * A O j * det m (minor j A))
  end.

Definition mul (n : nat) (A B : mat) : mat := fun i j => rsum n (fun k => A i k * B k j).
Definition tr (A : mat) : mat := fun i j => A j i.
Definition idm : mat := fun i j => if Nat.eqb i j then 1 else 0.
Definition setcol (j : nat) (c : nat -> R) (A : mat) : mat := fun i k => if Nat.eqb k j then c i else A i k.

Definition eqn (n : nat) (A B : mat) : Prop := forall i j, (i < n)%nat -> (j < n)%nat -> A i j = B i j.

Lemma skip_lt j k m : (k < m)%nat -> (skip j k < S m)%nat.
Proof. unfold skip. destruct (Nat.ltb_spec k j); lia. Qed.
Lemma skip_neq j k : skip j k <> j.
Proof. unfold skip. destruct (Nat.ltb_spec k j); lia. Qed.
Lemma skip_inj j k k' : skip j k = skip j k' -> k = k'.
Proof. unfold skip. destruct (Nat.ltb_spec k j), (Nat.ltb_spec k' j); lia. Qed.
Lemma skip_surj j l m : (l < S m)%nat -> (j < S m)%nat -> l <> j -> exists k, (k < m)%nat /\ skip j k = l.
Proof.
  intros H1 H2 H3. destruct (Nat.lt_ge_cases l j).
  - exists l. split; [lia|]. unfold skip. destruct (Nat.ltb_spec l j); lia.
  - exists (l - 1)%nat. split; [lia|]. unfold skip. destruct (Nat.ltb_spec (l - 1) j); lia.
Qed.

Lemma det_ext n : forall A B, eqn n A B -> det n A = det n B.
Proof.
  induction n as [|n IH]; intros A B H; [reflexivity|].
  cbn [det]. apply rsum_ext. intros j Hj. rewrite (H O j) by lia. f_equal. apply IH.
  intros i k Hi Hk. unfold minor. apply H; [lia|]. apply skip_lt; auto.
Qed.

Lemma minor_setcol_same j c A : forall i k, minor j (setcol j c A) i k = minor j A i k.
Proof. intros. unfold minor, setcol. destruct (Nat.eqb_spec (skip j k) j); auto. destruct (skip_neq j k); auto. Qed.

Lemma minor_setcol_other n j l A : (j < S n)%nat -> (l < S n)%nat -> j <> l ->
  exists l', (l' < n)%nat /\ skip j l' = l /\ forall c i k, minor j (setcol l c A) i k = setcol l' (fun i => c (S i)) (minor j A) i k.
Proof.
  intros Hj Hl N. destruct (skip_surj j l n Hl Hj) as (l' & L' & E); auto. exists l'. repeat split; auto.
  intros c' i k. unfold minor, setcol. destruct (Nat.eqb_spec (skip j k) l) as [E1|N1], (Nat.eqb_spec k l') as [E2|N2]; auto.
  - exfalso. apply N2. apply (skip_inj j). congruence.
  - exfalso. apply N1. congruence.
Qed.

(** Linear in each column. *)
Lemma det_col_lin n : forall j A c c' a b, (j < n)%nat ->
  det n (setcol j (fun i => a * c i + b * c' i) A) = a * det n (setcol j c A) + b * det n (setcol j c' A).
Proof.
  induction n as [|n IH]; intros j A c c' a b Hj; [lia|].
  cbn [det]. rewrite <- !rsum_scal, <- rsum_add. apply rsum_ext. intros l Hl.
  destruct (Nat.eq_dec l j) as [->|N].
  - rewrite !(det_ext n (minor j (setcol j _ A)) (minor j A)); try (intros ? ? _ _; apply minor_setcol_same).
    unfold setcol. rewrite Nat.eqb_refl. ring.
  - destruct (minor_setcol_other n l j A Hl Hj) as (j' & J' & Ej & E); auto.
    rewrite !(det_ext n (minor l (setcol j _ A)) (setcol j' _ (minor l A))) by (intros ? ? _ _; apply E).
    rewrite (IH j' (minor l A) (fun i => c (S i)) (fun i => c' (S i)) a b J').
    assert (S0 : forall c, setcol j c A O l = A O l) by (intros; unfold setcol; destruct (Nat.eqb_spec l j); congruence).
    rewrite !S0. ring.
Qed.

Lemma det_ext_all n A B : (forall i j, A i j = B i j) -> det n A = det n B.
Proof. intros H. apply det_ext. intros i j _ _; auto. Qed.

(** Zero if two adjacent columns are equal. *)
Lemma det_adj n : forall j A, (S j < n)%nat -> (forall i, (i < n)%nat -> A i j = A i (S j)) -> det n A = 0.
Proof.
  induction n as [|n IH]; intros j A Hj H; [lia|].
  cbn [det].
  assert (E : forall l, (l < S n)%nat -> l <> j -> l <> S j -> sgn l * A O l * det n (minor l A) = 0).
  { intros l Hl N1 N2. destruct (Nat.lt_ge_cases l j).
    - rewrite (IH (j - 1)%nat); [ring|lia|]. intros i Hi. unfold minor, skip.
      destruct (Nat.ltb_spec (j - 1) l), (Nat.ltb_spec (S (j - 1)) l); try lia.
      replace (S (j - 1)) with j by lia. apply H; lia.
    - rewrite (IH j); [ring|lia|]. intros i Hi. unfold minor, skip.
      destruct (Nat.ltb_spec j l), (Nat.ltb_spec (S j) l); try lia. apply H; lia. }
  rewrite (rsum_ext (S n) _ (fun l => (if Nat.eqb l j then sgn j * A O j * det n (minor j A) else 0)
      + (if Nat.eqb l (S j) then - (sgn j * A O j * det n (minor j A)) else 0))).
  2:{ intros l Hl. destruct (Nat.eqb_spec l j), (Nat.eqb_spec l (S j)); subst; try lia.
      - ring.
      - cbn [sgn]. rewrite (H O) by lia. rewrite (det_ext n (minor (S j) A) (minor j A)); [ring|].
        intros i k Hi Hk. unfold minor, skip. destruct (Nat.ltb_spec k (S j)), (Nat.ltb_spec k j); try lia; auto.
        assert (k = j) by lia. subst. apply H; lia.
      - rewrite E by auto. ring. }
  rewrite rsum_add.
  rewrite (rsum_delta (S n) j (fun _ => sgn j * A O j * det n (minor j A))) by lia.
  rewrite (rsum_delta (S n) (S j) (fun _ => - (sgn j * A O j * det n (minor j A)))) by lia. ring.
Qed.

(** An alternating multilinear function of the n columns. *)
Record altform (n : nat) (f : mat -> R) : Prop := {
  alt_ext : forall A B, eqn n A B -> f A = f B;
  alt_lin : forall j A c c' a b, (j < n)%nat ->
    f (setcol j (fun i => a * c i + b * c' i) A) = a * f (setcol j c A) + b * f (setcol j c' A);
  alt_adj : forall j A, (S j < n)%nat -> (forall i, (i < n)%nat -> A i j = A i (S j)) -> f A = 0 }.

Lemma det_alt n : altform n (det n).
Proof. split; [apply det_ext|apply det_col_lin|apply det_adj]. Qed.

Definition swapcol (j l : nat) (A : mat) : mat :=
  fun i k => if Nat.eqb k j then A i l else if Nat.eqb k l then A i j else A i k.

Section Alt.
Variables (n : nat) (f : mat -> R).
Hypothesis F : altform n f.

Lemma alt_set_same j A : (j < n)%nat -> f (setcol j (fun i => A i j) A) = f A.
Proof.
  intros Hj. apply (alt_ext n f F). intros i k _ _. unfold setcol. destruct (Nat.eqb_spec k j); subst; auto.
Qed.

Lemma alt_zero j A : (j < n)%nat -> (forall i, (i < n)%nat -> A i j = 0) -> f A = 0.
Proof.
  intros Hj H. pose proof (alt_lin n f F j A (fun i => A i j) (fun i => A i j) 0 0 Hj) as E.
  rewrite alt_set_same in E by auto.
  rewrite (alt_ext n f F _ A) in E.
  - lra.
  - intros i k Hi Hk. unfold setcol. destruct (Nat.eqb_spec k j); subst; auto. rewrite H by auto. ring.
Qed.

(** Adjacent swap changes the sign. *)
Lemma alt_swap_adj j A : (S j < n)%nat -> f (swapcol j (S j) A) = - f A.
Proof.
  intros Hj.
  set (u := fun i => A i j). set (v := fun i => A i (S j)).
  set (M := fun (a b : nat -> R) => setcol j a (setcol (S j) b A)).
  assert (Z : forall a, f (M a a) = 0).
  { intros a. apply (alt_adj n f F j); auto. intros i Hi. unfold M, setcol.
    rewrite !Nat.eqb_refl. destruct (Nat.eqb_spec (S j) j); [lia|reflexivity]. }
  assert (L1 : forall a a' b, f (M (fun i => 1 * a i + 1 * a' i) b) = 1 * f (M a b) + 1 * f (M a' b)).
  { intros a a' b. unfold M. apply (alt_lin n f F); lia. }
  assert (L2 : forall a b b', f (M a (fun i => 1 * b i + 1 * b' i)) = 1 * f (M a b) + 1 * f (M a b')).
  { intros a b b'. unfold M.
    assert (C : forall x y, f (setcol j x (setcol (S j) y A)) = f (setcol (S j) y (setcol j x A))).
    { intros x y. apply (alt_ext n f F). intros i k _ _. unfold setcol.
      destruct (Nat.eqb_spec k j), (Nat.eqb_spec k (S j)); auto. lia. }
    rewrite !C. apply (alt_lin n f F); lia. }
  pose proof (Z (fun i => 1 * u i + 1 * v i)) as E. rewrite L1, !L2, !Z in E.
  replace (f (swapcol j (S j) A)) with (f (M v u)).
  2:{ apply (alt_ext n f F). intros i k _ _. unfold M, setcol, swapcol, u, v.
      destruct (Nat.eqb_spec k j), (Nat.eqb_spec k (S j)); auto. }
  replace (f A) with (f (M u v)).
  2:{ apply (alt_ext n f F). intros i k _ _. unfold M, setcol, u, v.
      destruct (Nat.eqb_spec k j), (Nat.eqb_spec k (S j)); subst; auto. }
  lra.
Qed.

(** Two equal columns anywhere. *)
Lemma alt_eq_dist d : forall j A, (S (j + d) < n)%nat -> (forall i, (i < n)%nat -> A i j = A i (S (j + d))) -> f A = 0.
Proof.
  induction d as [|d IH]; intros j A Hj H.
  - rewrite Nat.add_0_r in *. apply (alt_adj n f F j); auto.
  - assert (f (swapcol j (S j) A) = 0).
    { apply (IH (S j)); [lia|]. intros i Hi. unfold swapcol.
      rewrite Nat.eqb_refl. destruct (Nat.eqb_spec (S j) j); [lia|].
      destruct (Nat.eqb_spec (S (S j + d)) j); [lia|]. destruct (Nat.eqb_spec (S (S j + d)) (S j)); [lia|].
      rewrite H by auto. f_equal. lia. }
    rewrite alt_swap_adj in H0 by lia. lra.
Qed.
Lemma alt_eq j l A : (j < n)%nat -> (l < n)%nat -> j <> l -> (forall i, (i < n)%nat -> A i j = A i l) -> f A = 0.
Proof.
  intros Hj Hl N H. destruct (Nat.lt_ge_cases j l).
  - apply (alt_eq_dist (l - j - 1) j); [lia|]. intros i Hi. rewrite H by auto. f_equal. lia.
  - apply (alt_eq_dist (j - l - 1) l); [lia|]. intros i Hi. rewrite <- H by auto. f_equal. lia.
Qed.

(** Adding a multiple of another column does not matter. *)
Lemma alt_add_col j l A a : (j < n)%nat -> (l < n)%nat -> j <> l ->
  f (setcol j (fun i => A i j + a * A i l) A) = f A.
Proof.
  intros Hj Hl N.
  rewrite (alt_ext n f F _ (setcol j (fun i => 1 * A i j + a * A i l) A)).
  2:{ intros i k _ _. unfold setcol. destruct (Nat.eqb k j); ring. }
  rewrite (alt_lin n f F) by auto. rewrite alt_set_same by auto.
  rewrite (alt_eq j l (setcol j (fun i => A i l) A)); auto; [ring|].
  intros i Hi. unfold setcol. rewrite Nat.eqb_refl. destruct (Nat.eqb_spec l j); [congruence|reflexivity].
Qed.

Lemma alt_swap j l A : (j < n)%nat -> (l < n)%nat -> j <> l -> f (swapcol j l A) = - f A.
Proof.
  intros Hj Hl N.
  set (u := fun i => A i j). set (v := fun i => A i l).
  set (M := fun (a b : nat -> R) => setcol j a (setcol l b A)).
  assert (Z : forall a, f (M a a) = 0).
  { intros a. apply (alt_eq j l); auto. intros i Hi. unfold M, setcol.
    rewrite !Nat.eqb_refl. destruct (Nat.eqb_spec l j); [congruence|reflexivity]. }
  assert (L1 : forall a a' b, f (M (fun i => 1 * a i + 1 * a' i) b) = 1 * f (M a b) + 1 * f (M a' b)).
  { intros a a' b. unfold M. apply (alt_lin n f F); lia. }
  assert (L2 : forall a b b', f (M a (fun i => 1 * b i + 1 * b' i)) = 1 * f (M a b) + 1 * f (M a b')).
  { intros a b b'. unfold M.
    assert (C : forall x y, f (setcol j x (setcol l y A)) = f (setcol l y (setcol j x A))).
    { intros x y. apply (alt_ext n f F). intros i k _ _. unfold setcol.
      destruct (Nat.eqb_spec k j), (Nat.eqb_spec k l); auto. lia. }
    rewrite !C. apply (alt_lin n f F); lia. }
  pose proof (Z (fun i => 1 * u i + 1 * v i)) as E. rewrite L1, !L2, !Z in E.
  replace (f (swapcol j l A)) with (f (M v u)).
  2:{ apply (alt_ext n f F). intros i k _ _. unfold M, setcol, swapcol, u, v.
      destruct (Nat.eqb_spec k j), (Nat.eqb_spec k l); auto. }
  replace (f A) with (f (M u v)).
  2:{ apply (alt_ext n f F). intros i k _ _. unfold M, setcol, u, v.
      destruct (Nat.eqb_spec k j), (Nat.eqb_spec k l); subst; auto. }
  lra.
Qed.

Lemma alt_sum m : forall j A (a : nat -> R) (c : nat -> nat -> R), (j < n)%nat ->
  f (setcol j (fun i => rsum m (fun l => a l * c l i)) A) = rsum m (fun l => a l * f (setcol j (c l) A)).
Proof.
  induction m as [|m IH]; intros j A a c Hj.
  - rewrite rsum_0. apply (alt_zero j); auto. intros i _. unfold setcol. rewrite Nat.eqb_refl. reflexivity.
  - rewrite rsum_S, <- IH by auto.
    rewrite (alt_ext n f F _ (setcol j (fun i => 1 * rsum m (fun l => a l * c l i) + a m * c m i) A)).
    2:{ intros i k _ _. unfold setcol. destruct (Nat.eqb k j); rewrite ?rsum_S; ring. }
    rewrite (alt_lin n f F) by auto. ring.
Qed.
End Alt.

(** Matrices whose columns are unit vectors. *)
Definition selm (p : nat -> nat) : mat := fun i k => if Nat.eqb i (p k) then 1 else 0.

(** A map from k+1 indices to k values repeats a value. *)
Lemma repeats k : forall p, (forall i, (i < S k)%nat -> (p i < k)%nat) ->
  exists i j, (i < S k)%nat /\ (j < S k)%nat /\ i <> j /\ p i = p j.
Proof.
  induction k as [|k IH]; intros p H; [specialize (H O); lia|].
  (* either two indices share the value p (S k), or remove it *)
  destruct (List.in_dec Nat.eq_dec (p (S k)) (List.map p (List.seq 0 (S k)))) as [I|I].
  - apply List.in_map_iff in I. destruct I as (i & E & Hi). apply List.in_seq in Hi.
    exists i, (S k). repeat split; auto; lia.
  - set (v := p (S k)) in *.
    set (q := fun i => if Nat.ltb (p i) v then p i else (p i - 1)%nat).
    assert (Nv : forall i, (i < S k)%nat -> p i <> v).
    { intros i Hi E. apply I. apply List.in_map_iff. exists i. split; auto. apply List.in_seq. lia. }
    destruct (IH q) as (i & j & Hi & Hj & N & E).
    { intros i Hi. unfold q. assert (p i < S k)%nat by (apply H; lia).
      assert (v < S k)%nat by (apply H; lia). specialize (Nv i Hi). destruct (Nat.ltb_spec (p i) v); lia. }
    exists i, j. repeat split; auto; [lia..|]. unfold q in E.
    pose proof (Nv i Hi). pose proof (Nv j Hj).
    destruct (Nat.ltb_spec (p i) v), (Nat.ltb_spec (p j) v); lia.
Qed.

Section Unique.
Variables (n : nat) (f g : mat -> R).
Hypothesis F : altform n f.
Hypothesis G : altform n g.
Hypothesis I : f idm = g idm.

Lemma selm_repeat (h : mat -> R) (Hh : altform n h) p i j : (i < n)%nat -> (j < n)%nat -> i <> j -> p i = p j -> h (selm p) = 0.
Proof. intros Hi Hj N E. apply (alt_eq n h Hh i j); auto. intros k _. unfold selm. rewrite E. reflexivity. Qed.

Lemma sel_agree k : forall p, (k <= n)%nat -> (forall i, (i < n)%nat -> (p i < n)%nat) ->
  (forall i, (k <= i < n)%nat -> p i = i) -> f (selm p) = g (selm p).
Proof.
  induction k as [|k IH]; intros p Hk Hp Hi.
  - assert (E : eqn n (selm p) idm).
    { intros i j Hi' Hj. unfold selm, idm. rewrite Hi by lia. reflexivity. }
    rewrite (alt_ext n f F _ idm E), (alt_ext n g G _ idm E). exact I.
  - destruct (Nat.eq_dec (p k) k) as [E|N].
    + apply IH; [lia|auto|]. intros i Hi'. destruct (Nat.eq_dec i k); subst; auto. apply Hi. lia.
    + destruct (List.in_dec Nat.eq_dec k (List.map p (List.seq 0 k))) as [J|J].
      * apply List.in_map_iff in J. destruct J as (i & E & Hi'). apply List.in_seq in Hi'.
        set (p' := fun l => if Nat.eqb l i then p k else if Nat.eqb l k then p i else p l).
        assert (Q : forall h, altform n h -> h (selm p) = - h (selm p')).
        { intros h Hh. rewrite <- (alt_swap n h Hh i k (selm p')) by lia. apply (alt_ext n h Hh).
          intros x y _ _. unfold swapcol, selm, p'. 
          destruct (Nat.eqb_spec y i).
          - subst y. rewrite Nat.eqb_refl. destruct (Nat.eqb_spec k i); [lia|reflexivity].
          - destruct (Nat.eqb_spec y k).
            + subst y. rewrite Nat.eqb_refl. reflexivity.
            + destruct (Nat.eqb_spec y i); [lia|]. reflexivity. }
        rewrite (Q f F), (Q g G). f_equal. apply IH; [lia| |].
        { intros l Hl. unfold p'. destruct (Nat.eqb l i); [apply Hp; lia|]. destruct (Nat.eqb l k); apply Hp; lia. }
        { intros l Hl. unfold p'. destruct (Nat.eqb_spec l i); [lia|].
          destruct (Nat.eqb_spec l k); [lia|]. apply Hi. lia. }
      * (* k is not a value on 0..k; values above k are hit twice *)
        destruct (List.Exists_dec (fun i => (k < p i)%nat) (List.seq 0 (S k))) as [X|X].
        { intros i. apply lt_dec. }
        { apply List.Exists_exists in X. destruct X as (i & Hi' & Li). apply List.in_seq in Hi'.
          assert (Pn : (p i < n)%nat) by (apply Hp; lia).
          rewrite (selm_repeat f F p i (p i)), (selm_repeat g G p i (p i)); auto; try lia.
          - symmetry. apply Hi. lia.
          - symmetry. apply Hi. lia. }
        { destruct (repeats k p) as (i & j & Hi' & Hj' & N' & E').
          { intros i Hi'. assert (~ (k < p i)%nat).
            { intros C. apply X. apply List.Exists_exists. exists i. split; auto. apply List.in_seq. lia. }
            assert (p i <> k); [|lia]. intros C. destruct (Nat.eq_dec i k); [congruence|].
            apply J. apply List.in_map_iff. exists i. split; auto. apply List.in_seq. lia. }
          rewrite (selm_repeat f F p i j), (selm_repeat g G p i j); auto; lia. }
Qed.

Lemma cols_agree k : forall A p, (k <= n)%nat -> (forall i, (i < n)%nat -> (p i < n)%nat) ->
  (forall i j, (i < n)%nat -> (k <= j < n)%nat -> A i j = selm p i j) -> f A = g A.
Proof.
  induction k as [|k IH]; intros A p Hk Hp H.
  - assert (E : eqn n A (selm p)) by (intros i j Hi Hj; apply H; lia).
    rewrite (alt_ext n f F _ _ E), (alt_ext n g G _ _ E). apply (sel_agree n); auto. intros; lia.
  - assert (Q : forall h, altform n h -> h A = rsum n (fun l => A l k * h (setcol k (fun i => if Nat.eqb i l then 1 else 0) A))).
    { intros h Hh. rewrite <- (alt_sum n h Hh n k A (fun l => A l k) (fun l i => if Nat.eqb i l then 1 else 0)) by lia.
      apply (alt_ext n h Hh). intros i j Hi Hj. unfold setcol. destruct (Nat.eqb_spec j k); auto. subst j.
      rewrite (rsum_ext n _ (fun l => if Nat.eqb l i then A l k else 0)).
      - rewrite (rsum_delta n i (fun l => A l k)) by auto. reflexivity.
      - intros l _. rewrite (Nat.eqb_sym i l). destruct (Nat.eqb l i); ring. }
    rewrite (Q f F), (Q g G). apply rsum_ext. intros l Hl. f_equal.
    apply (IH _ (fun j => if Nat.eqb j k then l else p j)); [lia| |].
    + intros i Hi. destruct (Nat.eqb i k); auto.
    + intros i j Hi Hj. unfold setcol, selm. destruct (Nat.eqb_spec j k); auto. apply H; lia.
Qed.

Lemma alt_unique A : f A = g A.
Proof. apply (cols_agree n A (fun i => i)); auto. intros; lia. Qed.
End Unique.

(** Scaled alternating forms. *)
Lemma alt_scale n f a : altform n f -> altform n (fun A => a * f A).
Proof.
  intros F. split.
  - intros A B E. rewrite (alt_ext n f F A B E). reflexivity.
  - intros j A c c' x y Hj. rewrite (alt_lin n f F) by auto. ring.
  - intros j A Hj H. rewrite (alt_adj n f F j A Hj H). ring.
Qed.

Lemma det_idm n : det n idm = 1.
Proof.
  induction n as [|n IH]; [reflexivity|]. cbn [det].
  rewrite (rsum_ext (S n) _ (fun j => if Nat.eqb j O then 1 else 0)).
  - rewrite (rsum_delta (S n) O (fun _ => 1)) by lia. reflexivity.
  - intros j Hj. unfold idm at 1. rewrite (Nat.eqb_sym O j). destruct (Nat.eqb_spec j O).
    + subst. cbn [sgn]. rewrite (det_ext n _ idm); [rewrite IH; ring|]. intros i k _ _. reflexivity.
    + ring.
Qed.

Lemma det_unique n f A : altform n f -> f A = f idm * det n A.
Proof.
  intros F. apply (alt_unique n f (fun A => f idm * det n A)); auto.
  - apply alt_scale, det_alt.
  - rewrite det_idm. ring.
Qed.

Lemma mul_idm_r n A : eqn n (mul n A idm) A.
Proof.
  intros i j Hi Hj. unfold mul, idm. rewrite (rsum_ext n _ (fun k => if Nat.eqb k j then A i k else 0)).
  - rewrite rsum_delta by auto. reflexivity.
  - intros k _. destruct (Nat.eqb k j); ring.
Qed.

Theorem det_mul n A B : det n (mul n A B) = det n A * det n B.
Proof.
  rewrite (det_unique n (fun B => det n (mul n A B)) B).
  - rewrite (det_ext n _ A) by apply mul_idm_r. reflexivity.
  - split.
    + intros X Y E. apply det_ext. intros i j Hi Hj. unfold mul. apply rsum_ext. intros k Hk. rewrite E; auto.
    + intros j X c c' a b Hj.
      assert (Q : forall c, det n (mul n A (setcol j c X)) = det n (setcol j (fun i => rsum n (fun k => A i k * c k)) (mul n A X))).
      { intros c0. apply det_ext_all. intros i k. unfold mul, setcol. destruct (Nat.eqb k j); reflexivity. }
      rewrite !Q. rewrite <- det_col_lin by auto. apply det_ext_all. intros i k. unfold setcol.
      destruct (Nat.eqb k j); auto. rewrite <- !rsum_scal, <- rsum_add. apply rsum_ext. intros; ring.
    + intros j X Hj H. apply (det_adj n j); auto. intros i Hi. unfold mul. apply rsum_ext. intros k Hk.
      rewrite H by auto. reflexivity.
Qed.

(** Rows *)
Definition setrow (i : nat) (c : nat -> R) (A : mat) : mat := fun k j => if Nat.eqb k i then c j else A k j.

Lemma det_row_lin n : forall i A c c' a b, (i < n)%nat ->
  det n (setrow i (fun j => a * c j + b * c' j) A) = a * det n (setrow i c A) + b * det n (setrow i c' A).
Proof.
  induction n as [|n IH]; intros i A c c' a b Hi; [lia|].
  cbn [det]. rewrite <- !rsum_scal, <- rsum_add. apply rsum_ext. intros l Hl.
  destruct i as [|i].
  - assert (E : forall c, det n (minor l (setrow 0 c A)) = det n (minor l A)) by (intros; apply det_ext_all; reflexivity).
    rewrite !E. unfold setrow. cbn [Nat.eqb]. ring.
  - assert (E : forall c, det n (minor l (setrow (S i) c A)) = det n (setrow i (fun k => c (skip l k)) (minor l A))).
    { intros c0. apply det_ext_all. intros x y. unfold minor, setrow. simpl. reflexivity. }
    rewrite !E. rewrite (IH i _ (fun k => c (skip l k)) (fun k => c' (skip l k)) a b) by lia.
    assert (S0 : forall c, setrow (S i) c A O l = A O l) by (intros; reflexivity).
    rewrite !S0. ring.
Qed.

Lemma det_rows_eq n i l A : (i < n)%nat -> (l < n)%nat -> i <> l -> (forall j, (j < n)%nat -> A i j = A l j) -> det n A = 0.
Proof.
  intros Hi Hl N H. set (P := swapcol i l idm).
  assert (E : eqn n (mul n P A) A).
  { intros x y Hx Hy. unfold mul, P, swapcol, idm.
    rewrite (rsum_ext n _ (fun k => if Nat.eqb k (if Nat.eqb x i then l else if Nat.eqb x l then i else x) then A k y else 0)).
    2:{ intros k Hk. destruct (Nat.eqb_spec k i), (Nat.eqb_spec k l), (Nat.eqb_spec x i), (Nat.eqb_spec x l); subst; try lia;
        repeat match goal with |- context [Nat.eqb ?a ?b] => destruct (Nat.eqb_spec a b) end; subst; try lia; ring. }
    rewrite (rsum_delta n _ (fun k => A k y)).
    2:{ destruct (Nat.eqb x i); auto. destruct (Nat.eqb x l); auto. }
    destruct (Nat.eqb_spec x i); [subst; symmetry; apply H; auto|]. destruct (Nat.eqb_spec x l); [subst; apply H; auto|reflexivity]. }
  pose proof (det_ext n _ _ E) as D. rewrite det_mul in D. unfold P in D.
  rewrite (alt_swap n (det n) (det_alt n) i l idm) in D by auto. rewrite det_idm in D. lra.
Qed.

Theorem det_tr n A : det n (tr A) = det n A.
Proof.
  rewrite (det_unique n (fun A => det n (tr A)) A).
  - rewrite (det_ext_all n (tr idm) idm); [rewrite det_idm; ring|].
    intros i j. unfold tr, idm. rewrite Nat.eqb_sym. reflexivity.
  - split.
    + intros X Y E. apply det_ext. intros i j Hi Hj. unfold tr. apply E; auto.
    + intros j X c c' a b Hj.
      assert (Q : forall c, det n (tr (setcol j c X)) = det n (setrow j c (tr X))).
      { intros c0. apply det_ext_all. intros i k. reflexivity. }
      rewrite !Q. apply det_row_lin; auto.
    + intros j X Hj H. apply (det_rows_eq n j (S j)); try lia. intros k Hk. unfold tr. apply H; auto.
Qed.

Lemma sgn_neq n : sgn n <> 0.
Proof. induction n; simpl; lra. Qed.

(** ** Singular matrices have a kernel vector. *)
Definition nonzero (n : nat) (v : nat -> R) : Prop := exists i, (i < n)%nat /\ v i <> 0.
Definition kernel (m n : nat) (A : mat) (v : nat -> R) : Prop := forall i, (i < m)%nat -> rsum n (fun k => A i k * v k) = 0.

(** Split a sum at index j. *)
Lemma rsum_skip n j f : (j < S n)%nat -> rsum (S n) f = f j + rsum n (fun k => f (skip j k)).
Proof.
  revert j f. induction n as [|n IH]; intros j f Hj.
  - assert (j = O) by lia. subst. rewrite rsum_S, !rsum_0. ring.
  - destruct (Nat.eq_dec j (S n)) as [->|N].
    + rewrite (rsum_S (S n)). rewrite Rplus_comm. f_equal. apply rsum_ext. intros k Hk. unfold skip.
      destruct (Nat.ltb_spec k (S n)); [reflexivity|lia].
    + rewrite (rsum_S (S n)), (IH j) by lia. rewrite (rsum_S n (fun k => f (skip j k))).
      unfold skip at 3. destruct (Nat.ltb_spec n j); [lia|]. ring.
Qed.

(** Elimination of the column j by the pivot A 0 j. *)
Definition elim (j : nat) (A : mat) : mat :=
  fun i k => A (S i) (skip j k) - A O (skip j k) / A O j * A (S i) j.

Definition unskip (j l : nat) : nat := if Nat.ltb l j then l else (l - 1)%nat.
Lemma unskip_skip j k : unskip j (skip j k) = k.
Proof. unfold unskip, skip. destruct (Nat.ltb_spec k j). destruct (Nat.ltb_spec k j); lia. destruct (Nat.ltb_spec (S k) j); lia. Qed.

Lemma elim_kernel m n j A v : (j < S n)%nat -> A O j <> 0 -> nonzero n v -> kernel m n (elim j A) v ->
  exists w, nonzero (S n) w /\ kernel (S m) (S n) A w.
Proof.
  intros Hj Ha (i0 & Hi0 & Nz) K.
  set (w := fun l => if Nat.eqb l j then - rsum n (fun k => A O (skip j k) / A O j * v k) else v (unskip j l)).
  assert (Wj : w j = - rsum n (fun k => A O (skip j k) / A O j * v k)) by (unfold w; rewrite Nat.eqb_refl; reflexivity).
  assert (Ws : forall k, w (skip j k) = v k).
  { intros k. unfold w. destruct (Nat.eqb_spec (skip j k) j) as [E|_]; [destruct (skip_neq j k E)|].
    rewrite unskip_skip. reflexivity. }
  exists w. split.
  - exists (skip j i0). split; [apply skip_lt; auto|]. rewrite Ws. auto.
  - intros i Hi. rewrite (rsum_skip n j) by auto. rewrite Wj.
    rewrite (rsum_ext n (fun k => A i (skip j k) * w (skip j k)) (fun k => A i (skip j k) * v k)) by (intros; rewrite Ws; reflexivity).
    rewrite Ropp_mult_distr_r_reverse, <- rsum_scal.
    destruct i as [|i].
    + rewrite <- rsum_opp, <- rsum_add. apply rsum_zero'. intros k Hk. field. auto.
    + assert (Hi' : (i < m)%nat) by lia. rewrite <- (K i Hi'). rewrite <- rsum_opp, <- rsum_add.
      apply rsum_ext. intros k Hk. unfold elim. ring.
Qed.

Lemma row0_cases n (A : mat) : (exists j, (j < n)%nat /\ A O j <> 0) \/ (forall j, (j < n)%nat -> A O j = 0).
Proof.
  induction n as [|n [(j & Hj & N)|H]]; [right; intros; lia| |].
  - left. exists j. split; auto.
  - destruct (Req_EM_T (A O n) 0) as [E|N].
    + right. intros j Hj. destruct (Nat.eq_dec j n); subst; auto. apply H. lia.
    + left. exists n. auto.
Qed.

(** n equations in n+1 unknowns. *)
Lemma wide_kernel n : forall A, exists v, nonzero (S n) v /\ kernel n (S n) A v.
Proof.
  induction n as [|n IH]; intros A.
  - exists (fun _ => 1). split; [exists O; split; [lia|lra]|]. intros i Hi. lia.
  - destruct (row0_cases (S (S n)) A) as [(j & Hj & N)|Z].
    + destruct (IH (elim j A)) as (v & Nv & Kv). apply (elim_kernel n (S n) j A v); auto.
    + destruct (IH (fun i k => A (S i) k)) as (v & (i0 & Hi0 & Nz) & Kv).
      exists (fun k => if Nat.eqb k (S n) then 0 else v k). split.
      * exists i0. split; [lia|]. destruct (Nat.eqb_spec i0 (S n)); [lia|auto].
      * intros i Hi. destruct i as [|i].
        -- apply rsum_zero'. intros k Hk. rewrite Z by auto. ring.
        -- rewrite rsum_S, Nat.eqb_refl. rewrite (rsum_ext (S n) _ (fun k => A (S i) k * v k)).
           ++ rewrite (Kv i) by lia. ring.
           ++ intros k Hk. destruct (Nat.eqb_spec k (S n)); [lia|reflexivity].
Qed.

(** Column elimination leaves the determinant unchanged. *)
Lemma det_cols_elim n j (c : nat -> R) A m : (j < n)%nat -> (m <= n)%nat ->
  det n (fun i k => if Nat.ltb k m then (if Nat.eqb k j then A i k else A i k - c k * A i j) else A i k) = det n A.
Proof.
  intros Hj. induction m as [|m IH]; intros Hm.
  - apply det_ext_all. intros i k. reflexivity.
  - rewrite <- IH by lia. set (B := fun i k => if Nat.ltb k m then (if Nat.eqb k j then A i k else A i k - c k * A i j) else A i k).
    destruct (Nat.eq_dec m j) as [->|N].
    + apply det_ext_all. intros i k. unfold B. destruct (Nat.ltb_spec k (S j)), (Nat.ltb_spec k j); try lia; auto.
      destruct (Nat.eqb_spec k j); [auto|lia].
    + rewrite <- (alt_add_col n (det n) (det_alt n) m j B (- c m)) by (auto; lia).
      apply det_ext_all. intros i k. unfold setcol, B.
      destruct (Nat.eqb_spec k m).
      * subst k. destruct (Nat.ltb_spec m (S m)); [|lia]. destruct (Nat.ltb_spec m m); [lia|].
        destruct (Nat.eqb_spec m j); [lia|].
        destruct (Nat.ltb_spec j m); [rewrite Nat.eqb_refl|]; ring.
      * destruct (Nat.ltb_spec k (S m)), (Nat.ltb_spec k m); try lia; auto.
Qed.

Lemma det_elim n j A : (j < S n)%nat -> A O j <> 0 -> det (S n) A = sgn j * A O j * det n (elim j A).
Proof.
  intros Hj Ha. rewrite <- (det_cols_elim (S n) j (fun k => A O k / A O j) A (S n) Hj (Nat.le_refl _)).
  cbn [det].
  rewrite (rsum_ext (S n) _ (fun l => if Nat.eqb l j then sgn j * A O j * det n (elim j A) else 0)).
  - rewrite (rsum_delta (S n) j (fun _ => sgn j * A O j * det n (elim j A))) by auto. reflexivity.
  - intros l Hl. destruct (Nat.ltb_spec l (S n)); [|lia]. destruct (Nat.eqb_spec l j).
    + subst l. f_equal. apply det_ext. intros i k Hi Hk. unfold minor, elim.
      assert (skip j k < S n)%nat by (apply skip_lt; auto).
      destruct (Nat.ltb_spec (skip j k) (S n)); [|lia].
      destruct (Nat.eqb_spec (skip j k) j) as [E|_]; [destruct (skip_neq j k E)|]. reflexivity.
    + replace (A O l - A O l / A O j * A O j) with 0 by (field; auto). ring.
Qed.

Theorem det_zero_kernel n : forall A, det n A = 0 -> exists v, nonzero n v /\ kernel n n A v.
Proof.
  induction n as [|n IH]; intros A D; [simpl in D; lra|].
  destruct (row0_cases (S n) A) as [(j & Hj & N)|Z].
  - rewrite (det_elim n j A Hj N) in D.
    assert (D' : det n (elim j A) = 0).
    { apply Rmult_integral in D. destruct D as [D|D]; auto. apply Rmult_integral in D.
      destruct D as [D|D]; [destruct (sgn_neq j D)|contradiction]. }
    destruct (IH _ D') as (v & Nv & Kv). apply (elim_kernel n n j A v); auto.
  - destruct (wide_kernel n (fun i k => A (S i) k)) as (v & Nv & Kv). exists v. split; auto.
    intros i Hi. destruct i as [|i].
    + apply rsum_zero'. intros k Hk. rewrite Z by auto. ring.
    + apply Kv. lia.
Qed.
