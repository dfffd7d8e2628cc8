(** Sorted association lists standing for [std::set] and [std::map] (and for
    [std::unordered_map], whose iteration order the code never observes).
    The comparison is a parameter, as in the C++ templates. *)
From Coq Require Import List Bool.
Import ListNotations.

Section SMap.
Context {K : Type} (ltb : K -> K -> bool).

(** Keys are equivalent when neither is less, as in the C++ containers. *)
Definition keqb (a b : K) : bool := negb (ltb a b) && negb (ltb b a).

Section MapFns.
Context {V : Type}.

(** [map::find] *)
Fixpoint mfind (k : K) (m : list (K * V)) : option V :=
  match m with
  | [] => None
  | (k', v) :: m' =>
      if ltb k k' then None else if ltb k' k then mfind k m' else Some v
  end.

(** [map[k] = v] *)
Fixpoint mset (k : K) (v : V) (m : list (K * V)) : list (K * V) :=
  match m with
  | [] => [(k, v)]
  | (k', v') :: m' =>
      if ltb k k' then (k, v) :: m
      else if ltb k' k then (k', v') :: mset k v m' else (k', v) :: m'
  end.

(** [map::emplace]: keeps an existing entry *)
Definition memplace (k : K) (v : V) (m : list (K * V)) : list (K * V) :=
  match mfind k m with Some _ => m | None => mset k v m end.

(** [map::erase] *)
Fixpoint merase (k : K) (m : list (K * V)) : list (K * V) :=
  match m with
  | [] => []
  | (k', v') :: m' =>
      if ltb k k' then m
      else if ltb k' k then (k', v') :: merase k m' else m'
  end.
End MapFns.

(** [set::find != end] *)
Fixpoint smem (k : K) (s : list K) : bool :=
  match s with
  | [] => false
  | k' :: s' => if ltb k k' then false else if ltb k' k then smem k s' else true
  end.

(** [set::insert] / [set::emplace] *)
Fixpoint sins (k : K) (s : list K) : list K :=
  match s with
  | [] => [k]
  | k' :: s' =>
      if ltb k k' then k :: s else if ltb k' k then k' :: sins k s' else s
  end.

(** Strictly increasing. *)
Fixpoint ssorted (s : list K) : Prop :=
  match s with
  | [] => True
  | k :: s' => Forall (fun k' => ltb k k' = true) s' /\ ssorted s'
  end.

(** What the C++ containers require of the comparison, plus: equivalent keys
    are equal. *)
Record strict_total : Prop := {
  st_irr : forall a, ltb a a = false;
  st_trans : forall a b c, ltb a b = true -> ltb b c = true -> ltb a c = true;
  st_total : forall a b, ltb a b = false -> ltb b a = false -> a = b }.

Section Lemmas.
Hypothesis ST : strict_total.

Lemma ltb_asym a b : ltb a b = true -> ltb b a = false.
Proof.
  intros H. destruct (ltb b a) eqn:E; auto.
  pose proof (st_trans ST _ _ _ H E) as C.
  rewrite (st_irr ST a) in C. discriminate.
Qed.

Lemma smem_In k s : ssorted s -> (smem k s = true <-> In k s).
Proof.
  induction s as [|k' s IH]; simpl; [intuition discriminate|].
  intros [HF HS]. destruct (ltb k k') eqn:E1.
  - split; [discriminate|]. intros [->|Hin].
    + rewrite (st_irr ST) in E1. discriminate.
    + rewrite Forall_forall in HF. specialize (HF _ Hin).
      pose proof (st_trans ST _ _ _ E1 HF) as C. rewrite (st_irr ST) in C. discriminate.
  - destruct (ltb k' k) eqn:E2.
    + rewrite IH by auto. split; auto. intros [->|]; auto.
      rewrite (st_irr ST) in E2. discriminate.
    + split; auto. left. symmetry. apply (st_total ST); auto.
Qed.

Lemma sins_In k s x : In x (sins k s) <-> x = k \/ In x s.
Proof.
  induction s as [|k' s IH]; simpl.
  - intuition auto.
  - destruct (ltb k k') eqn:E1; [simpl; intuition auto|].
    destruct (ltb k' k) eqn:E2.
    + simpl. rewrite IH. intuition auto.
    + simpl. assert (k = k') by (apply (st_total ST); auto). subst. intuition auto.
Qed.

Lemma sins_sorted k s : ssorted s -> ssorted (sins k s).
Proof.
  induction s as [|k' s IH]; simpl; [intuition auto|].
  intros [HF HS]. destruct (ltb k k') eqn:E1.
  - simpl. repeat split; auto. constructor; auto.
    eapply Forall_impl; [|exact HF]. simpl. intros a Ha. eapply (st_trans ST); eauto.
  - destruct (ltb k' k) eqn:E2; simpl; auto.
    split; auto. rewrite Forall_forall in *. intros x Hx.
    apply sins_In in Hx. destruct Hx as [->|Hx]; auto.
Qed.

Lemma ssorted_NoDup s : ssorted s -> NoDup s.
Proof.
  induction s as [|k s IH]; simpl; [constructor|].
  intros [HF HS]. constructor; auto. intros Hin.
  rewrite Forall_forall in HF. specialize (HF _ Hin). rewrite (st_irr ST) in HF. discriminate.
Qed.

(** Two strictly sorted lists with the same elements are equal. *)
Lemma ssorted_ext s1 s2 :
  ssorted s1 -> ssorted s2 -> (forall x, In x s1 <-> In x s2) -> s1 = s2.
Proof.
  revert s2; induction s1 as [|a s1 IH]; intros [|b s2] H1 H2 E.
  - reflexivity.
  - exfalso. apply (E b). left; auto.
  - exfalso. apply (E a). left; auto.
  - simpl in H1, H2. destruct H1 as [F1 S1], H2 as [F2 S2].
    rewrite Forall_forall in F1, F2.
    assert (Hab : a = b).
    { destruct (proj1 (E a) (or_introl eq_refl)) as [|Ha]; auto.
      destruct (proj2 (E b) (or_introl eq_refl)) as [|Hb]; auto.
      specialize (F1 _ Hb). specialize (F2 _ Ha).
      rewrite (ltb_asym _ _ F1) in F2. discriminate. }
    subst b. f_equal. apply IH; auto. intros x. split; intros Hx.
    + destruct (proj1 (E x) (or_intror Hx)) as [<-|]; auto.
      specialize (F1 _ Hx). rewrite (st_irr ST) in F1. discriminate.
    + destruct (proj2 (E x) (or_intror Hx)) as [<-|]; auto.
      specialize (F2 _ Hx). rewrite (st_irr ST) in F2. discriminate.
Qed.

Section MapLemmas.
Context {V : Type}.
Implicit Types (m : list (K * V)).

Definition msorted m : Prop := ssorted (map fst m).

Lemma mfind_In k v m : msorted m -> (mfind k m = Some v <-> In (k, v) m).
Proof.
  unfold msorted. induction m as [|[k' v'] m IH]; simpl; [intuition discriminate|].
  intros [HF HS]. rewrite Forall_forall in HF.
  destruct (ltb k k') eqn:E1.
  - split; [discriminate|]. intros [H|Hin].
    + inversion H; subst. rewrite (st_irr ST) in E1. discriminate.
    + specialize (HF k (in_map fst _ _ Hin)).
      rewrite (ltb_asym _ _ E1) in HF. discriminate.
  - destruct (ltb k' k) eqn:E2.
    + rewrite IH by auto. split; auto. intros [H|]; auto.
      inversion H; subst. rewrite (st_irr ST) in E2. discriminate.
    + assert (k = k') by (apply (st_total ST); auto). subst k'. split.
      * intros H; inversion H; auto.
      * intros [H|Hin]; [inversion H; auto|].
        specialize (HF k (in_map fst _ _ Hin)). rewrite (st_irr ST) in HF. discriminate.
Qed.

Lemma mfind_None k m : msorted m -> (mfind k m = None <-> ~ In k (map fst m)).
Proof.
  intros HS. split.
  - intros H Hin. apply in_map_iff in Hin. destruct Hin as [[k' v] [<- Hin]].
    apply (mfind_In _ _ _ HS) in Hin. simpl in *. congruence.
  - intros H. destruct (mfind k m) eqn:E; auto.
    apply (mfind_In _ _ _ HS) in E. exfalso. apply H. apply (in_map fst _ _ E).
Qed.

Lemma mset_keys k v m x : In x (map fst (mset k v m)) <-> x = k \/ In x (map fst m).
Proof.
  induction m as [|[k' v'] m IH]; simpl; [intuition auto|].
  destruct (ltb k k') eqn:E1; [simpl; intuition auto|].
  destruct (ltb k' k) eqn:E2; simpl.
  - rewrite IH. intuition auto.
  - assert (k = k') by (apply (st_total ST); auto). subst. intuition auto.
Qed.

Lemma mset_sorted k v m : msorted m -> msorted (mset k v m).
Proof.
  unfold msorted. induction m as [|[k' v'] m IH]; simpl; [intuition auto|].
  intros [HF HS]. destruct (ltb k k') eqn:E1.
  - simpl. repeat split; auto. constructor; auto.
    eapply Forall_impl; [|exact HF]. simpl. intros a Ha. eapply (st_trans ST); eauto.
  - destruct (ltb k' k) eqn:E2; simpl; auto.
    split; auto. rewrite Forall_forall in *. intros x Hx.
    apply mset_keys in Hx. destruct Hx as [->|Hx]; auto.
Qed.

Lemma mfind_mset_eq k v m : mfind k (mset k v m) = Some v.
Proof.
  induction m as [|[k' v'] m IH]; simpl.
  - rewrite !(st_irr ST). reflexivity.
  - destruct (ltb k k') eqn:E1; simpl.
    + rewrite !(st_irr ST). reflexivity.
    + destruct (ltb k' k) eqn:E2; simpl; rewrite ?E1, ?E2; auto.
Qed.

Lemma mfind_mset_neq k k0 v m : k0 <> k -> mfind k0 (mset k v m) = mfind k0 m.
Proof.
  intros Hne. induction m as [|[k' v'] m IH]; simpl.
  - destruct (ltb k0 k) eqn:E1; auto. destruct (ltb k k0) eqn:E2; auto.
    exfalso. apply Hne. apply (st_total ST); auto.
  - destruct (ltb k k') eqn:E1; simpl.
    + destruct (ltb k0 k) eqn:E2.
      * rewrite (st_trans ST _ _ _ E2 E1). reflexivity.
      * destruct (ltb k k0) eqn:E3; auto. exfalso. apply Hne. apply (st_total ST); auto.
    + destruct (ltb k' k) eqn:E2; simpl.
      * destruct (ltb k0 k'); auto. destruct (ltb k' k0); auto.
      * assert (k = k') by (apply (st_total ST); auto). subst k'.
        destruct (ltb k0 k) eqn:E3; auto. destruct (ltb k k0) eqn:E4; auto.
        exfalso. apply Hne. apply (st_total ST); auto.
Qed.

Lemma memplace_sorted k v m : msorted m -> msorted (memplace k v m).
Proof. unfold memplace. destruct (mfind k m); auto using mset_sorted. Qed.

Lemma memplace_keys k v m x :
  msorted m -> In x (map fst (memplace k v m)) <-> x = k \/ In x (map fst m).
Proof.
  intros HS. unfold memplace. destruct (mfind k m) eqn:E.
  - split; auto. intros [->|]; auto. apply (mfind_In _ _ _ HS) in E. apply (in_map fst _ _ E).
  - apply mset_keys.
Qed.

Lemma merase_keys k m x :
  msorted m -> In x (map fst (merase k m)) <-> In x (map fst m) /\ x <> k.
Proof.
  unfold msorted. induction m as [|[k' v'] m IH]; simpl; [intuition auto|].
  intros [HF HS]. rewrite Forall_forall in HF.
  destruct (ltb k k') eqn:E1; simpl.
  - split; [|intuition auto]. intros H. split; auto. intros ->.
    destruct H as [->|H]; [rewrite (st_irr ST) in E1; discriminate|].
    specialize (HF _ H). rewrite (ltb_asym _ _ E1) in HF. discriminate.
  - destruct (ltb k' k) eqn:E2; simpl.
    + rewrite IH by auto. split; intros H.
      * destruct H as [->|[H1 H2]]; auto. split; auto. intros ->. rewrite (st_irr ST) in E2. discriminate.
      * destruct H as [[->|H] H2]; auto.
    + assert (k = k') by (apply (st_total ST); auto). subst k'.
      split; intros H.
      * split; auto. intros ->. specialize (HF _ H). rewrite (st_irr ST) in HF. discriminate.
      * destruct H as [[->|H] H2]; auto. congruence.
Qed.

Lemma merase_In k m kv :
  msorted m -> In kv (merase k m) <-> In kv m /\ fst kv <> k.
Proof.
  unfold msorted. induction m as [|[k' v'] m IH]; simpl; [intuition auto|].
  intros [HF HS]. rewrite Forall_forall in HF.
  destruct (ltb k k') eqn:E1; simpl.
  - split; [|intuition auto]. intros H. split; auto. intros Heq. subst k.
    destruct H as [<-|H]; [simpl in E1; rewrite (st_irr ST) in E1; discriminate|].
    specialize (HF _ (in_map fst _ _ H)). rewrite (ltb_asym _ _ E1) in HF. discriminate.
  - destruct (ltb k' k) eqn:E2; simpl.
    + rewrite IH by auto. split; intros H.
      * destruct H as [<-|[H1 H2]]; auto. split; auto. simpl. intros ->. rewrite (st_irr ST) in E2. discriminate.
      * destruct H as [[H|H] H2]; auto.
    + assert (k = k') by (apply (st_total ST); auto). subst k'.
      split; intros H.
      * split; auto. intros Heq. pose proof (HF _ (in_map fst _ _ H)) as HF'. rewrite Heq, (st_irr ST) in HF'. discriminate.
      * destruct H as [[H|H] H2]; auto. subst kv. simpl in H2. congruence.
Qed.

Lemma merase_sorted k m : msorted m -> msorted (merase k m).
Proof.
  unfold msorted. induction m as [|[k' v'] m IH]; simpl; auto.
  intros [HF HS]. destruct (ltb k k') eqn:E1; simpl; auto.
  destruct (ltb k' k) eqn:E2; simpl; auto. split; auto.
  rewrite Forall_forall in *. intros x Hx.
  apply merase_keys in Hx; auto. destruct Hx; auto.
Qed.

Lemma mfind_merase k k0 m :
  msorted m -> mfind k0 (merase k m) = if keqb k0 k then None else mfind k0 m.
Proof.
  intros HS. pose proof (merase_sorted k m HS) as HS'.
  destruct (keqb k0 k) eqn:E.
  - apply (mfind_None _ _ HS'). rewrite merase_keys by auto.
    apply andb_true_iff in E. rewrite !negb_true_iff in E.
    assert (k0 = k) by (apply (st_total ST); tauto). intuition auto.
  - assert (Hne : k0 <> k).
    { intros ->. unfold keqb in E. rewrite !(st_irr ST) in E. discriminate. }
    destruct (mfind k0 m) eqn:F.
    + apply (mfind_In _ _ _ HS) in F. apply (mfind_In _ _ _ HS').
      apply merase_In; auto.
    + apply (mfind_None _ _ HS) in F. apply (mfind_None _ _ HS').
      rewrite merase_keys by auto. tauto.
Qed.
End MapLemmas.
End Lemmas.
End SMap.

Arguments mfind {K} ltb {V} k m.
Arguments mset {K} ltb {V} k v m.
Arguments memplace {K} ltb {V} k v m.
Arguments merase {K} ltb {V} k m.
Arguments msorted {K} ltb {V} m.
