(** Programs with lifted variables behave as programs with values. *)
From Coq Require Import List Bool Arith Lia.
From Verif Require Import Base Num ModelProblem ModelPoses ModelVariable SpecVariable.
Import ListNotations.
Local Open Scope res_scope.

Section Proofs.
Context {S : Type} `{Num S}.
Implicit Types (m : Mem S) (b : Block S).

Lemma upd_same : forall {A} (f : nat -> A) k v, upd f k v k = v.
Proof. intros; unfold upd. now rewrite Nat.eqb_refl. Qed.
Lemma upd_other : forall {A} (f : nat -> A) k v j, j <> k -> upd f k v j = f j.
Proof. intros; unfold upd. now rewrite (proj2 (Nat.eqb_neq _ _)). Qed.
Lemma bind_name_same : forall (t : @Store S) x v, bind_name t x v x = v.
Proof. intros; unfold bind_name. now rewrite Nat.eqb_refl. Qed.
Lemma bind_name_other : forall (t : @Store S) x v y, x <> y -> bind_name t x v y = t y.
Proof. intros; unfold bind_name. now rewrite (proj2 (Nat.eqb_neq _ _)). Qed.

Lemma idx_mod : forall j r p, p < r -> (j * r + p) mod r = p.
Proof. intros. rewrite Nat.add_comm, Nat.mod_add by lia. now apply Nat.mod_small. Qed.
Lemma idx_div : forall j r p, p < r -> (j * r + p) / r = j.
Proof. intros. rewrite Nat.add_comm, Nat.div_add by lia. rewrite Nat.div_small by lia. lia. Qed.
Lemma col_lt : forall i n d q, i < n -> q <= d -> i * (d + 1) + q < (d + 1) * n.
Proof. intros. assert (i + 1 <= n) by lia. nia. Qed.
Lemma idx_lt : forall j c r p, j < c -> p < r -> j * r + p < r * c.
Proof. intros. assert (j + 1 <= c) by lia. nia. Qed.
Lemma len_cols : forall r d n, space_len r d n = r * ((d + 1) * n).
Proof. intros; unfold space_len. lia. Qed.

(** The block [b] holds the value [v]. *)
Definition stores (b : Block S) (v : Value S) : Prop :=
  b_len b = space_len (val_r v) (val_d v) (val_n v) /\
  forall i p q, i < val_n v -> p < val_r v -> q <= val_d v ->
    b_at b ((i * (val_d v + 1) + q) * val_r v + p) = Some (val v i p q).
Definition fits (o : Var) (v : Value S) : Prop :=
  v_r o = val_r v /\ v_d o = val_d v /\ v_n o = val_n v /\ v_map o = v_space o /\
  v_rows o = val_r v /\ v_cols o = (val_d v + 1) * val_n v /\ val_d v <= val_r v.
Definition holds (m : Mem S) (o : Var) (v : Value S) : Prop :=
  fits o v /\ v_space o < m_next m /\ exists b, m_blk m (v_space o) = Some b /\ stores b v.
Definition rel (s : State) (t : @Store S) : Prop :=
  (forall x, match s_obj s x, t x with
             | Some o, Some v => holds (s_mem s) o v
             | None, None => True
             | _, _ => False end) /\
  (forall x y o o', s_obj s x = Some o -> s_obj s y = Some o' -> x <> y -> v_space o <> v_space o').

(** A value does not depend on entries out of range. *)
Definition same_value (v w : Value S) : Prop :=
  val_r v = val_r w /\ val_d v = val_d w /\ val_n v = val_n w /\
  forall i p q, i < val_n v -> p < val_r v -> q <= val_d v -> val v i p q = val w i p q.
Lemma stores_same : forall b v w, stores b v -> same_value v w -> stores b w.
Proof.
  intros b v w [L Hs] (A & B & C & D). split; [now rewrite <- A, <- B, <- C|].
  intros. rewrite <- A, <- B. rewrite Hs by lia. now rewrite D by lia.
Qed.
Lemma fits_same : forall o v w, fits o v -> same_value v w -> fits o w.
Proof. intros o v w (A & B & C & D & E & F & G) (A' & B' & C' & _). unfold fits. rewrite <- A', <- B', <- C'. tauto. Qed.

Lemma decomp : forall n d j, j < (d + 1) * n -> exists i q, i < n /\ q <= d /\ j = i * (d + 1) + q.
Proof.
  intros. exists (j / (d + 1)), (j mod (d + 1)).
  pose proof (Nat.div_mod j (d + 1) ltac:(lia)). pose proof (Nat.mod_upper_bound j (d + 1) ltac:(lia)).
  split; [apply Nat.div_lt_upper_bound; lia|]. lia.
Qed.

(** Reading columns of a stored value. *)
Lemma read_ok : forall m a b v c0 nc, m_blk m a = Some b -> stores b v -> c0 + nc <= (val_d v + 1) * val_n v ->
  exists X, map_read m a (val_r v) ((val_d v + 1) * val_n v) c0 (val_r v) nc = Ok X /\ mrows X = val_r v /\ mcols X = nc /\
  forall i p q j, i < val_n v -> p < val_r v -> q <= val_d v -> c0 + j = i * (val_d v + 1) + q -> j < nc -> X p j = val v i p q.
Proof.
  intros m a b v c0 nc Hb [L Hs] Hc. unfold map_read, block_at. rewrite Hb. cbn [bind].
  unfold map_ok. rewrite L, len_cols. rewrite !(proj2 (Nat.leb_le _ _)) by lia. cbn [andb require].
  replace (forallb _ _) with true.
  - cbn [require]. eexists. split; [reflexivity|]. split; [reflexivity|]. split; [reflexivity|].
    intros i p q j Hi Hp Hq E Hj. cbn. unfold cell. rewrite E, Hs by lia. reflexivity.
  - symmetry. apply forallb_forall. intros j Hj. apply in_seq in Hj. apply forallb_forall. intros p Hp. apply in_seq in Hp.
    destruct (decomp (val_n v) (val_d v) (c0 + j)) as (i & q & Hi & Hq & E); [lia|].
    unfold is_set. rewrite E, Hs by lia. reflexivity.
Qed.

(** Writing [w] columns from column [c] of pose [k]. *)
Lemma write_ok : forall m a b v k c w X, m_blk m a = Some b -> stores b v -> k < val_n v -> c + w <= val_d v + 1 ->
  has_size X (val_r v) w = true ->
  exists b', map_write m a (val_r v) ((val_d v + 1) * val_n v) (k * (val_d v + 1) + c) (val_r v) w X = Ok (put_block m a b') /\
  stores b' (with_columns v k c w X).
Proof.
  intros m a b v k c w X Hb [L Hs] Hk Hc Hx. unfold map_write, block_at. rewrite Hb. cbn [bind].
  unfold map_ok. rewrite L, len_cols.
  assert (k * (val_d v + 1) + c + w <= (val_d v + 1) * val_n v) by nia.
  rewrite !(proj2 (Nat.leb_le _ _)) by lia. cbn [andb require]. rewrite Hx. cbn [require].
  eexists. split; [reflexivity|]. split; [symmetry; apply len_cols|].
  cbn [val_n val_r val_d with_columns val b_at]. intros i p q Hi Hp Hq.
  rewrite idx_mod, idx_div by lia. rewrite (proj2 (Nat.ltb_lt p _)) by lia. cbn [andb].
  destruct (Nat.eqb_spec i k) as [->|Hik]; cbn [andb].
  - destruct (Nat.leb_spec c q), (Nat.leb_spec (k * (val_d v + 1) + c) (k * (val_d v + 1) + q)); try lia; cbn [andb].
    + destruct (Nat.ltb_spec q (c + w)), (Nat.ltb_spec (k * (val_d v + 1) + q) (k * (val_d v + 1) + c + w)); try lia.
      * f_equal. f_equal. lia.
      * now apply Hs.
    + now apply Hs.
  - destruct (Nat.leb_spec (k * (val_d v + 1) + c) (i * (val_d v + 1) + q)); cbn [andb]; [|now apply Hs].
    destruct (Nat.ltb_spec (i * (val_d v + 1) + q) (k * (val_d v + 1) + c + w)); [|now apply Hs].
    exfalso. assert (i < k \/ k < i) as [] by lia; nia.
Qed.

(** Copying a whole matrix; the old contents do not matter. *)
Lemma copy_ok : forall m a b r d n X, m_blk m a = Some b -> b_len b = space_len r d n ->
  mrows X = r -> mcols X = (d + 1) * n ->
  exists b', copy_in m a X (r * (d + 1) * n) = Ok (put_block m a b') /\ stores b' (of_matrix r d n X).
Proof.
  intros m a b r d n X Hb L Hr Hc. unfold copy_in, block_at. rewrite Hb. cbn [bind].
  rewrite L, len_cols, Hr, Hc. rewrite !(proj2 (Nat.leb_le _ _)) by lia. cbn [andb require].
  eexists. split; [reflexivity|]. split; [symmetry; apply len_cols|].
  cbn [val_n val_r val_d of_matrix val b_at]. intros i p q Hi Hp Hq.
  pose proof (idx_lt _ _ _ p (col_lt i n d q Hi Hq) Hp).
  rewrite (proj2 (Nat.ltb_lt _ _)) by lia. now rewrite idx_mod, idx_div by lia.
Qed.

(** ** The relation and the heap *)
Lemma put_same : forall m a b, m_blk (put_block m a b) a = Some b.
Proof. intros. cbn. apply upd_same. Qed.
Lemma put_other : forall m a b c, c <> a -> m_blk (put_block m a b) c = m_blk m c.
Proof. intros. cbn. now apply upd_other. Qed.

Lemma rel_obj : forall s t x o, rel s t -> s_obj s x = Some o -> exists v, t x = Some v /\ holds (s_mem s) o v.
Proof. intros s t x o [R _] E. specialize (R x). rewrite E in R. destruct (t x) as [v|]; [eauto|contradiction]. Qed.
Lemma rel_val : forall s t x v, rel s t -> t x = Some v -> exists o, s_obj s x = Some o /\ holds (s_mem s) o v.
Proof. intros s t x v [R _] E. specialize (R x). rewrite E in R. destruct (s_obj s x) as [o|]; [eauto|contradiction]. Qed.
Lemma rel_none : forall s t x, rel s t -> t x = None -> s_obj s x = None.
Proof. intros s t x [R _] E. specialize (R x). rewrite E in R. destruct (s_obj s x) as [o|]; [contradiction|reflexivity]. Qed.

(** Replacing the contents of the block of [x]. *)
Lemma rel_put : forall s t x o v w b, rel s t -> s_obj s x = Some o -> t x = Some v ->
  val_r w = val_r v -> val_d w = val_d v -> val_n w = val_n v -> stores b w ->
  rel (mkState (put_block (s_mem s) (v_space o) b) (s_obj s)) (bind_name t x (Some w)).
Proof.
  intros s t x o v w b R Eo Et A B C Hb. pose proof R as [R1 R2]. split; [|exact R2].
  intros y. cbn [s_obj s_mem]. destruct (Nat.eq_dec x y) as [<-|N].
  - rewrite bind_name_same, Eo. pose proof (R1 x) as Hx. rewrite Eo, Et in Hx. destruct Hx as (F & Lt & _).
    split; [|split; [exact Lt|exists b; split; [apply put_same|exact Hb]]].
    destruct F as (F1 & F2 & F3 & F4 & F5 & F6 & F7). unfold fits. rewrite A, B, C. tauto.
  - rewrite bind_name_other by exact N. pose proof (R1 y) as Hy.
    destruct (s_obj s y) as [o'|] eqn:Eo'; [|exact Hy]. destruct (t y) as [v'|]; [|exact Hy].
    destruct Hy as (F & Lt & b' & Hb' & Hs'). split; [exact F|]. split; [exact Lt|]. exists b'. split; [|exact Hs'].
    rewrite put_other; [exact Hb'|]. apply (R2 y x o' o Eo' Eo). congruence.
Qed.

(** An object in a fresh block; the block of the object it replaces may go. *)
Lemma rel_fresh : forall s t x o v b m', rel s t -> v_space o = m_next (s_mem s) -> fits o v -> stores b v ->
  m_next m' = Datatypes.S (m_next (s_mem s)) -> m_blk m' (m_next (s_mem s)) = Some b ->
  (forall c, c <> m_next (s_mem s) -> (forall o', s_obj s x = Some o' -> c <> v_space o') -> m_blk m' c = m_blk (s_mem s) c) ->
  rel (mkState m' (upd (s_obj s) x (Some o))) (bind_name t x (Some v)).
Proof.
  intros s t x o v b m' [R1 R2] Ea F Hb Nx Bx Fr.
  assert (forall k ok, s_obj s k = Some ok -> v_space ok < m_next (s_mem s)) as Lt.
  { intros k ok Ek. pose proof (R1 k) as Hk. rewrite Ek in Hk. destruct (t k); [|contradiction]. now destruct Hk as (_ & ? & _). }
  split.
  - intros y. cbn [s_obj s_mem]. destruct (Nat.eq_dec x y) as [<-|N].
    + rewrite bind_name_same, upd_same. split; [exact F|]. split; [lia|]. exists b. rewrite Ea. now split.
    + rewrite bind_name_other by exact N. rewrite upd_other by congruence. pose proof (R1 y) as Hy.
      destruct (s_obj s y) as [o'|] eqn:Ey; [|exact Hy]. destruct (t y) as [v'|]; [|exact Hy].
      destruct Hy as (F' & Lt' & b' & Hb' & Hs'). split; [exact F'|]. split; [lia|]. exists b'. split; [|exact Hs'].
      rewrite Fr; [exact Hb'|lia|]. intros o2 E2. apply (R2 y x o' o2 Ey E2). congruence.
  - cbn [s_obj]. intros y z o1 o2 E1 E2 N.
    destruct (Nat.eq_dec y x) as [->|Ny], (Nat.eq_dec z x) as [->|Nz]; try congruence;
      repeat rewrite upd_same in *; repeat rewrite upd_other in * by assumption.
    + injection E1 as <-. specialize (Lt z o2 E2). lia.
    + injection E2 as <-. specialize (Lt y o1 E1). lia.
    + eapply R2; eassumption.
Qed.

Definition same_store (t t' : @Store S) : Prop :=
  forall x, match t x, t' x with Some v, Some w => same_value v w | None, None => True | _, _ => False end.
Lemma rel_same : forall s t t', rel s t -> same_store t t' -> rel s t'.
Proof.
  intros s t t' [R1 R2] E. split; [|exact R2]. intros x. pose proof (R1 x) as Hx. pose proof (E x) as Ex.
  destruct (s_obj s x), (t x), (t' x); try contradiction; try exact I.
  destruct Hx as (F & L & b & Hb & Hs). split; [eapply fits_same; eassumption|]. split; [exact L|].
  exists b. split; [exact Hb|]. eapply stores_same; eassumption.
Qed.
Lemma same_value_refl : forall v : Value S, same_value v v.
Proof. intros; unfold same_value. auto. Qed.
Lemma same_bind2 : forall (t : @Store S) x v w w', same_value w w' -> same_store (bind_name (bind_name t x v) x (Some w)) (bind_name t x (Some w')).
Proof.
  intros t x v w w' E y. unfold bind_name. destruct (x =? y); [exact E|]. destruct (t y); [apply same_value_refl|exact I].
Qed.

(** ** Construction *)
(** After the first [k] rounds: poses below [k] are set. *)
Definition stores_upto (b : Block S) (r d n k : nat) : Prop :=
  b_len b = space_len r d n /\
  forall i p q, i < k -> p < r -> q <= d -> b_at b ((i * (d + 1) + q) * r + p) = Some (val (identity_value r d n) i p q).

Lemma write_raw : forall m a b r d n k c w X, m_blk m a = Some b -> b_len b = space_len r d n -> k < n -> c + w <= d + 1 ->
  has_size X r w = true ->
  exists b', map_write m a r ((d + 1) * n) (k * (d + 1) + c) r w X = Ok (put_block m a b') /\ b_len b' = b_len b /\
  (forall i p q, i < n -> p < r -> q <= d ->
     b_at b' ((i * (d + 1) + q) * r + p) =
     if (i =? k) && (c <=? q) && (q <? c + w) then Some (X p (q - c)) else b_at b ((i * (d + 1) + q) * r + p)).
Proof.
  intros m a b r d n k c w X Hb L Hk Hc Hx. unfold map_write, block_at. rewrite Hb. cbn [bind].
  unfold map_ok. rewrite L, len_cols.
  assert (k * (d + 1) + c + w <= (d + 1) * n) by nia.
  rewrite !(proj2 (Nat.leb_le _ _)) by lia. cbn [andb require]. rewrite Hx. cbn [require].
  eexists. split; [reflexivity|]. split; [reflexivity|]. cbn [b_at]. intros i p q Hi Hp Hq.
  rewrite idx_mod, idx_div by lia. rewrite (proj2 (Nat.ltb_lt p _)) by lia. cbn [andb].
  destruct (Nat.eqb_spec i k) as [->|Hik]; cbn [andb].
  - destruct (Nat.leb_spec c q), (Nat.leb_spec (k * (d + 1) + c) (k * (d + 1) + q)); try lia; cbn [andb]; [|reflexivity].
    destruct (Nat.ltb_spec q (c + w)), (Nat.ltb_spec (k * (d + 1) + q) (k * (d + 1) + c + w)); try lia; [|reflexivity].
    f_equal. f_equal. lia.
  - destruct (Nat.leb_spec (k * (d + 1) + c) (i * (d + 1) + q)); cbn [andb]; [|reflexivity].
    destruct (Nat.ltb_spec (i * (d + 1) + q) (k * (d + 1) + c + w)); [|reflexivity].
    exfalso. assert (i < k \/ k < i) as [] by lia; nia.
Qed.

Lemma has_size_refl : forall r c f, has_size (mkMx r c f : Mx S) r c = true.
Proof. intros; unfold has_size; cbn. now rewrite !Nat.eqb_refl. Qed.

Lemma put_put : forall m a b b', put_block (put_block m a b) a b' = mkMem (m_next m) (upd (upd (m_blk m) a (Some b)) a (Some b')).
Proof. reflexivity. Qed.

Lemma init_loop : forall r d n a l k m b, d <= r -> m_blk m a = Some b -> stores_upto b r d n k -> k + l <= n ->
  exists m' b',
    foldM (fun m i => do m <- v_set_rot m (mkVar r d n a a r ((d + 1) * n)) i (msetblock (mzero r d) 0 0 (mident d));
                      v_set_trans m (mkVar r d n a a r ((d + 1) * n)) i (mzero r 1)) m (seq k l) = Ok m' /\
    m_next m' = m_next m /\ m_blk m' a = Some b' /\ (forall c, c <> a -> m_blk m' c = m_blk m c) /\ stores_upto b' r d n (k + l).
Proof.
  intros r d n a l; induction l as [|l IH]; intros k m b Hd Hb [L Hs] Hk.
  - exists m, b. cbn. rewrite Nat.add_0_r. split; [reflexivity|]. split; [reflexivity|]. split; [exact Hb|]. split; [reflexivity|now split].
  - cbn [seq foldM]. unfold v_set_rot, v_set_trans at 1. cbn [v_n v_map v_rows v_cols v_d v_r].
    rewrite (proj2 (Nat.ltb_lt k n)) by lia. cbn [check bind].
    destruct (write_raw m a b r d n k 0 d (msetblock (mzero r d) 0 0 (mident d)) Hb L ltac:(lia) ltac:(lia) (has_size_refl _ _ _)) as (b1 & E1 & L1 & H1).
    rewrite Nat.add_0_r in E1. rewrite E1. cbn [bind].
    destruct (write_raw (put_block m a b1) a b1 r d n k d 1 (mzero r 1) (put_same _ _ _) ltac:(congruence) ltac:(lia) ltac:(lia) (has_size_refl _ _ _)) as (b2 & E2 & L2 & H2).
    rewrite E2. cbn [bind].
    destruct (IH (Datatypes.S k) (put_block (put_block m a b1) a b2) b2) as (m' & b' & E & Nx & B' & Fr & St); [exact Hd|apply put_same| |lia|].
    + split; [congruence|]. intros i p q Hi Hp Hq. rewrite H2, H1 by lia. cbn [val identity_value].
      destruct (Nat.eqb_spec i k) as [->|Hik]; cbn [andb]; [|apply Hs; lia].
      destruct (Nat.leb_spec d q); cbn [andb].
      * rewrite (proj2 (Nat.ltb_lt q (d + 1))), (proj2 (Nat.ltb_ge q d)) by lia. rewrite andb_false_r. reflexivity.
      * rewrite !(proj2 (Nat.ltb_lt q _)) by lia. rewrite andb_true_r. rewrite Nat.sub_0_r.
        cbn [Num.mat msetblock mzero mident mrows mcols Nat.leb Nat.add andb].
        rewrite (proj2 (Nat.ltb_lt q d)) by lia. rewrite !Nat.sub_0_r, !andb_true_r.
        destruct (Nat.ltb_spec p d); [reflexivity|]. now rewrite (proj2 (Nat.eqb_neq p q)) by lia.
    + exists m', b'. split; [exact E|]. split; [rewrite Nx; reflexivity|]. split; [exact B'|]. split.
      * intros c Hc. rewrite Fr by exact Hc. now rewrite !put_other by exact Hc.
      * replace (k + Datatypes.S l) with (Datatypes.S k + l) by lia. exact St.
Qed.

Lemma new_ok : forall s t x r d n, rel s t -> s_obj s x = None -> d <= r ->
  exists m' o, v_new (s_mem s) r d n = Ok (m', o) /\ v_r o = r /\ v_d o = d /\ v_n o = n /\
    rel (mkState m' (upd (s_obj s) x (Some o))) (bind_name t x (Some (identity_value r d n))).
Proof.
  intros s t x r d n R En Hd. unfold v_new, alloc. rewrite (proj2 (Nat.leb_le d r) Hd). cbn [require].
  set (a := m_next (s_mem s)). set (b0 := mkBlock (space_len r d n) (fun _ => None) : Block S).
  destruct (init_loop r d n a n 0 (mkMem (Datatypes.S a) (upd (m_blk (s_mem s)) a (Some b0))) b0 Hd) as (m' & b' & E & Nx & B' & Fr & L & St).
  - cbn. apply upd_same.
  - split; [reflexivity|]. intros; lia.
  - lia.
  - rewrite E. cbn [bind]. eexists. eexists. split; [reflexivity|]. split; [reflexivity|]. split; [reflexivity|]. split; [reflexivity|].
    apply (rel_fresh s t x _ _ b' m' R); [reflexivity| | |exact Nx|exact B'|].
    + unfold fits; cbn. tauto.
    + split; [exact L|]. cbn [val_n val_r val_d identity_value]. intros i p q Hi Hp Hq. apply St; lia.
    + intros c Hc _. rewrite Fr by exact Hc. cbn. now apply upd_other.
Qed.

Lemma get_ok : forall m o v, holds m o v -> exists X, v_getData m o = Ok X /\ mrows X = val_r v /\ mcols X = (val_d v + 1) * val_n v /\
  forall i p q, i < val_n v -> p < val_r v -> q <= val_d v -> X p (i * (val_d v + 1) + q) = val v i p q.
Proof.
  intros m o v ((A & B & C & D & E & F & G) & _ & b & Hb & Hs). unfold v_getData. rewrite D, E, F.
  destruct (read_ok m (v_space o) b v 0 ((val_d v + 1) * val_n v) Hb Hs ltac:(lia)) as (X & EX & RX & CX & VX).
  exists X. split; [exact EX|]. split; [exact RX|]. split; [exact CX|]. intros. eapply VX; try eassumption; [lia|]. now apply col_lt.
Qed.

Lemma set_sim : forall s t x X, rel s t ->
  match set_step t x X with Ok t' => exists s', do_set s x X = Ok s' /\ rel s' t' | Abort => do_set s x X = Abort | UB => do_set s x X = UB end.
Proof.
  intros s t x X R. unfold set_step, do_set, obj. destruct (t x) as [v|] eqn:Et.
  - destruct (rel_val s t x v R Et) as (o & Eo & Hh). rewrite Eo. cbn [bind].
    destruct Hh as ((A & B & C & D & E & F & G) & Lt & b & Hb & Hs). unfold v_setData. rewrite A, B, C.
    destruct (Nat.eqb_spec (mrows X) (val_r v)) as [Er|]; [|reflexivity].
    destruct (Nat.eqb_spec (mcols X) ((val_d v + 1) * val_n v)) as [Ec|]; [|reflexivity]. cbn [check andb].
    destruct (copy_ok (s_mem s) (v_space o) b _ _ _ X Hb (proj1 Hs) Er Ec) as (b' & Ec' & Hs'). rewrite Ec'. cbn [bind].
    eexists. split; [reflexivity|]. eapply rel_put; try eassumption; reflexivity.
  - rewrite (rel_none s t x R Et). reflexivity.
Qed.

Lemma same_of_matrix : forall (v : Value S) (X : Mx S),
  (forall i p q, i < val_n v -> p < val_r v -> q <= val_d v -> X p (i * (val_d v + 1) + q) = val v i p q) ->
  same_value (of_matrix (val_r v) (val_d v) (val_n v) X) v.
Proof. intros v X E. unfold same_value; cbn. split; [reflexivity|]. split; [reflexivity|]. split; [reflexivity|]. exact E. Qed.

Lemma columns_sim : forall s t x i w c X (f : Mem S -> Var -> res (Mem S)), rel s t ->
  (forall v, c v + w v <= val_d v + 1) ->
  (forall m o v, fits o v -> f m o = check (i <? v_n o) (map_write m (v_space o) (val_r v) ((val_d v + 1) * val_n v) (i * (val_d v + 1) + c v) (val_r v) (w v) X)) ->
  match columns_step t x i w c X with
  | Ok t' => exists s', on_view s x f = Ok s' /\ rel s' t' | Abort => on_view s x f = Abort | UB => on_view s x f = UB end.
Proof.
  intros s t x i w c X f R Hcw Hf. unfold columns_step, on_view, obj. destruct (t x) as [v|] eqn:Et.
  - destruct (rel_val s t x v R Et) as (o & Eo & Hh). rewrite Eo. cbn [bind]. destruct Hh as (F & Lt & b & Hb & Hs).
    rewrite (Hf _ _ _ F). pose proof F as (_ & _ & C & _). rewrite C.
    destruct (Nat.leb_spec (val_n v) i).
    + rewrite (proj2 (Nat.ltb_ge i _)) by lia. reflexivity.
    + rewrite (proj2 (Nat.ltb_lt i _)) by lia. cbn [check].
      destruct ((mrows X =? val_r v) && (mcols X =? w v)) eqn:Es.
      * destruct (write_ok (s_mem s) (v_space o) b v i (c v) (w v) X Hb Hs) as (b' & Ew & Hs'); [lia|apply Hcw|exact Es|].
        rewrite Ew. cbn [bind]. eexists. split; [reflexivity|]. eapply rel_put; try eassumption; reflexivity.
      * unfold map_write, block_at. rewrite Hb. cbn [bind]. unfold has_size. rewrite Es.
        destruct (map_ok _ _ _ _ _ _); reflexivity.
  - rewrite (rel_none s t x R Et). reflexivity.
Qed.

Lemma lib_sim : forall m o v rot trans, holds m o v ->
  exists b, lib_write m o rot trans = Ok (put_block m (v_space o) b) /\ stores b (of_factors v rot trans).
Proof.
  intros m o v rot trans ((A & B & C & D & E & F & G) & _ & b & Hb & L & Hs). unfold lib_write, block_at. rewrite Hb. cbn [bind].
  eexists. split; [reflexivity|]. split; [exact L|]. cbn [val_n val_r val_d of_factors val b_at b_len]. intros i p q Hi Hp Hq.
  rewrite A, B, L. set (r := val_r v) in *. set (d := val_d v) in *. set (n := val_n v) in *.
  pose proof (idx_lt _ _ _ p (col_lt i n d q Hi Hq) Hp). rewrite len_cols. rewrite (proj2 (Nat.ltb_lt _ _)) by lia.
  assert (q * r + p < r * d + r) by nia.
  replace ((i * (d + 1) + q) * r + p) with (i * (r * d + r) + (q * r + p)) by lia.
  rewrite idx_mod, idx_div by lia. destruct (Nat.ltb_spec q d).
  - rewrite (proj2 (Nat.ltb_lt _ _)) by nia. now rewrite idx_mod, idx_div by lia.
  - assert (q = d) by lia. subst q. rewrite (proj2 (Nat.ltb_ge _ _)) by lia. do 2 f_equal. lia.
Qed.

Lemma rel_delete : forall s t x o, rel s t -> s_obj s x = Some o ->
  rel (mkState (mkMem (m_next (s_mem s)) (upd (m_blk (s_mem s)) (v_space o) None)) (upd (s_obj s) x None)) (bind_name t x None).
Proof.
  intros s t x o [R1 R2] Eo. split.
  - intros y. cbn [s_obj s_mem]. destruct (Nat.eq_dec x y) as [<-|N]; [now rewrite upd_same, bind_name_same|].
    rewrite upd_other by congruence. rewrite bind_name_other by exact N. pose proof (R1 y) as Hy.
    destruct (s_obj s y) as [o'|] eqn:Ey; [|exact Hy]. destruct (t y) as [v'|]; [|exact Hy].
    destruct Hy as (F' & Lt' & b' & Hb' & Hs'). split; [exact F'|]. split; [exact Lt'|]. exists b'. split; [|exact Hs'].
    cbn [m_blk]. rewrite upd_other; [exact Hb'|]. apply (R2 y x o' o Ey Eo). congruence.
  - cbn [s_obj]. intros y z o1 o2 E1 E2 N. unfold upd in E1, E2.
    destruct (y =? x); [discriminate|]. destruct (z =? x); [discriminate|]. eapply R2; eassumption.
Qed.

Lemma new_sim : forall s t x r d n, rel s t ->
  match new_step t x r d n with Ok t' => exists s', do_new s x r d n = Ok s' /\ rel s' t' | Abort => do_new s x r d n = Abort | UB => do_new s x r d n = UB end.
Proof.
  intros s t x r d n R. unfold new_step, do_new, unused. destruct (t x) as [v|] eqn:Et.
  - destruct (rel_val s t x v R Et) as (o & Eo & _). rewrite Eo. reflexivity.
  - pose proof (rel_none s t x R Et) as En. rewrite En. cbn [require]. destruct (Nat.leb_spec d r).
    + destruct (new_ok s t x r d n R En ltac:(assumption)) as (m' & o & E & _ & _ & _ & R'). rewrite E. cbn [bind]. eauto.
    + unfold v_new, alloc. rewrite (proj2 (Nat.leb_gt d r)) by lia. reflexivity.
Qed.

Lemma step_sim : forall s t op, rel s t -> no_self op ->
  match value_step t op with Ok t' => exists s', step s op = Ok s' /\ rel s' t' | Abort => step s op = Abort | UB => step s op = UB end.
Proof.
  intros s t op R Hns. destruct op as [x r d n|x P|x y|x y|x X|x i X|x i X|x i X|x rot trans|x]; cbn [value_step step].
  - now apply new_sim.
  - pose proof (new_sim s t x (pa_r P) (pa_d P) (pa_n P) R) as Hn.
    destruct (new_step t x (pa_r P) (pa_d P) (pa_n P)) as [t1| |] eqn:E1; cbn [bind].
    + destruct Hn as (s1 & -> & R1). cbn [bind]. now apply set_sim.
    + now rewrite Hn.
    + now rewrite Hn.
  - destruct (t y) as [v|] eqn:Ey.
    + destruct (rel_val s t y v R Ey) as (o & Eo & Hh). unfold obj. rewrite Eo. cbn [bind].
      destruct (t x) as [w|] eqn:Ex.
      * destruct (rel_val s t x w R Ex) as (o' & Eo' & _). unfold do_new, unused. rewrite Eo'. reflexivity.
      * pose proof Hh as ((A & B & C & _ & _ & _ & G) & _).
        pose proof (new_sim s t x (v_r o) (v_d o) (v_n o) R) as Hn. unfold new_step in Hn.
        rewrite Ex, A, B, C in Hn. rewrite (proj2 (Nat.leb_le _ _) G) in Hn. destruct Hn as (s1 & E1 & R1). rewrite A, B, C, E1. cbn [bind].
        assert (x <> y) as Nxy by congruence.
        destruct (rel_val s1 _ y v R1) as (o1 & Eo1 & Hh1); [rewrite bind_name_other by exact Nxy; exact Ey|].
        assert (o1 = o) as ->.
        { unfold do_new, unused in E1. rewrite (rel_none s t x R Ex) in E1. cbn [require] in E1.
          destruct (v_new _ _ _ _) as [[m' o']| |]; try discriminate. injection E1 as <-. cbn [s_obj] in Eo1.
          rewrite upd_other in Eo1 by congruence. congruence. }
        destruct (get_ok _ _ _ Hh1) as (X & EX & RX & CX & VX). rewrite EX. cbn [bind].
        pose proof (set_sim s1 _ x X R1) as Hset. unfold set_step in Hset. rewrite bind_name_same in Hset.
        cbn [val_r val_d val_n identity_value] in Hset. rewrite RX, CX, !Nat.eqb_refl in Hset. cbn [andb] in Hset.
        destruct Hset as (s2 & E2 & R2). exists s2. split; [exact E2|]. eapply rel_same; [exact R2|].
        apply same_bind2. now apply same_of_matrix.
    + unfold obj. now rewrite (rel_none s t y R Ey).
  - cbn in Hns. unfold do_assign, obj. destruct (t y) as [v|] eqn:Ey.
    + destruct (rel_val s t y v R Ey) as (o & Eo & Hh). rewrite Eo. cbn [bind]. destruct (t x) as [w|] eqn:Ex.
      * destruct (rel_val s t x w R Ex) as (ox & Eox & Hx). rewrite Eox. cbn [bind].
        pose proof Hh as ((A & B & C & D & E & F & G) & Lty & b & Hb & Hs). pose proof Hx as (_ & Ltx & bx & Hbx & _).
        assert (v_space o <> v_space ox) as Nsp by (eapply (proj2 R); [exact Eo|exact Eox|congruence]).
        unfold alloc. unfold release at 1. cbn [m_blk]. rewrite upd_other by lia. rewrite Hbx. cbn [bind m_next].
        cbn [s_obj]. rewrite upd_other by congruence. rewrite Eo. cbn [bind s_mem].
        set (a := m_next (s_mem s)) in *.
        match goal with |- context [v_getData ?mm o] => set (m1 := mm) end.
        assert (m_blk m1 (v_space o) = Some b) as Hb1.
        { unfold m1. cbn [m_blk]. rewrite upd_other by exact Nsp. rewrite upd_other by lia. exact Hb. }
        destruct (get_ok m1 o v) as (X & EX & RX & CX & VX).
        { split; [unfold fits; tauto|]. split; [unfold m1; cbn; lia|]. exists b. split; [exact Hb1|exact Hs]. }
        rewrite EX. cbn [bind]. unfold do_set, obj. cbn [s_obj]. rewrite upd_same. cbn [bind s_mem].
        unfold v_setData. cbn [v_r v_d v_n v_space]. rewrite RX, CX, A, B, C, !Nat.eqb_refl. cbn [check].
        destruct (copy_ok m1 a (mkBlock (space_len (v_r o) (v_d o) (v_n o)) (fun _ => None)) (val_r v) (val_d v) (val_n v) X) as (b' & Ec & Hs').
        { unfold m1. cbn [m_blk]. rewrite upd_other by lia. apply upd_same. }
        { cbn. now rewrite A, B, C. }
        { exact RX. }
        { exact CX. }
        rewrite Ec. cbn [bind]. eexists. split; [reflexivity|].
        apply (rel_fresh s t x _ v b' _ R).
        { reflexivity. }
        { unfold fits; cbn. tauto. }
        { eapply stores_same; [exact Hs'|]. now apply same_of_matrix. }
        { reflexivity. }
        { apply put_same. }
        { intros c Hc Ho. rewrite put_other by exact Hc. unfold m1. cbn [m_blk]. rewrite upd_other by (now apply Ho).
          now rewrite upd_other by exact Hc. }
      * now rewrite (rel_none s t x R Ex).
    + now rewrite (rel_none s t y R Ey).
  - now apply set_sim.
  - apply columns_sim; [exact R|intros; lia|]. intros m o v (A & B & C & D & E & F & G). unfold v_set_pose. now rewrite A, B, D, E, F, Nat.add_0_r.
  - apply columns_sim; [exact R|intros; lia|]. intros m o v (A & B & C & D & E & F & G). unfold v_set_rot. now rewrite A, B, D, E, F, Nat.add_0_r.
  - apply columns_sim; [exact R|intros; lia|]. intros m o v (A & B & C & D & E & F & G). unfold v_set_trans. now rewrite A, B, D, E, F.
  - unfold on_view, obj. destruct (t x) as [v|] eqn:Et.
    + destruct (rel_val s t x v R Et) as (o & Eo & Hh). rewrite Eo. cbn [bind].
      destruct (lib_sim (s_mem s) o v rot trans Hh) as (b & E & Hs). rewrite E. cbn [bind]. eexists. split; [reflexivity|].
      eapply rel_put; try eassumption; reflexivity.
    + now rewrite (rel_none s t x R Et).
  - unfold obj. destruct (t x) as [v|] eqn:Et.
    + destruct (rel_val s t x v R Et) as (o & Eo & Hh). rewrite Eo. cbn [bind]. destruct Hh as (_ & _ & b & Hb & _).
      unfold release. rewrite Hb. cbn [bind]. eexists. split; [reflexivity|]. now apply rel_delete.
    + now rewrite (rel_none s t x R Et).
Qed.

Lemma exec_sim_from : forall ops s t, rel s t -> Forall no_self ops ->
  match foldM value_step t ops with
  | Ok t' => exists s', foldM step s ops = Ok s' /\ rel s' t' | Abort => foldM step s ops = Abort | UB => foldM step s ops = UB end.
Proof.
  induction ops as [|op ops IH]; intros s t R Hns; cbn [foldM].
  - eauto.
  - inversion Hns; subst. pose proof (step_sim s t op R ltac:(assumption)) as Hst.
    destruct (value_step t op) as [t1| |]; cbn [bind].
    + destruct Hst as (s1 & -> & R1). cbn [bind]. now apply IH.
    + now rewrite Hst.
    + now rewrite Hst.
Qed.

Lemma rel_agrees : forall s t, rel s t -> agrees s t.
Proof.
  intros s t R x. destruct (t x) as [v|] eqn:Et; [|now apply (rel_none s t x R)].
  destruct (rel_val s t x v R Et) as (o & Eo & Hh). exists o. split; [exact Eo|]. split; [now apply get_ok|].
  pose proof Hh as ((A & B & C & D & E & F & G) & _ & b & Hb & Hs). intros i Hi.
  unfold v_pose, v_rot, v_trans. rewrite C, A, B, D, E, F. rewrite (proj2 (Nat.ltb_lt i _) Hi). cbn [check].
  assert (i * (val_d v + 1) + (val_d v + 1) <= (val_d v + 1) * val_n v) by nia.
  split; [|split; [|split; [|split]]].
  - destruct (read_ok (s_mem s) _ b v (i * (val_d v + 1)) (val_d v + 1) Hb Hs ltac:(lia)) as (X & EX & RX & CX & VX).
    exists X. repeat (split; [assumption|]). intros. eapply VX; lia || eauto; lia.
  - destruct (read_ok (s_mem s) _ b v (i * (val_d v + 1)) (val_d v) Hb Hs ltac:(lia)) as (X & EX & RX & CX & VX).
    exists X. repeat (split; [assumption|]). intros. eapply VX; lia || eauto; lia.
  - destruct (read_ok (s_mem s) _ b v (i * (val_d v + 1) + val_d v) 1 Hb Hs ltac:(lia)) as (X & EX & RX & CX & VX).
    exists X. repeat (split; [assumption|]). intros. eapply VX; lia || eauto; lia.
  - unfold lib_rot, block_at. rewrite Hb. cbn [bind]. eexists. split; [reflexivity|]. intros p q Hp Hq. cbn. rewrite A, B.
    unfold cell. replace (i * (val_r v * val_d v + val_r v) + q * val_r v + p) with ((i * (val_d v + 1) + q) * val_r v + p) by lia.
    rewrite (proj2 Hs) by lia. reflexivity.
  - unfold lib_trans, block_at. rewrite Hb. cbn [bind]. eexists. split; [reflexivity|]. intros p Hp. cbn. rewrite A, B.
    unfold cell. replace (i * (val_r v * val_d v + val_r v) + val_r v * val_d v + p) with ((i * (val_d v + 1) + val_d v) * val_r v + p) by lia.
    rewrite (proj2 Hs) by lia. reflexivity.
Qed.

Lemma exec_values : forall ops : list (Op S), Forall no_self ops ->
  match value_exec ops with
  | Ok t => exists s, exec ops = Ok s /\ agrees s t
  | Abort => exec ops = Abort
  | UB => exec ops = UB
  end.
Proof.
  intros ops Hns. assert (rel (state0 : State) (fun _ => None)) as R0.
  { split; [intros x; exact I|]. intros x y o o' E. discriminate E. }
  pose proof (exec_sim_from ops state0 (fun _ => None) R0 Hns) as Hs. unfold value_exec, exec.
  destruct (foldM value_step _ ops) as [t| |]; [|exact Hs|exact Hs]. destruct Hs as (s' & E & R'). exists s'. split; [exact E|]. now apply rel_agrees.
Qed.

(** Assigning a variable to itself reads the new memory. *)
Lemma self_assign : forall (s : State) (t : @Store S) x v, rel s t -> t x = Some v -> 0 < val_r v -> 0 < val_n v -> step s (OAssign x x) = UB.
Proof.
  intros s t x v R Et Hr Hn. destruct (rel_val s t x v R Et) as (o & Eo & (A & B & C & D & E & F & G) & Lt & b & Hb & Hs).
  cbn [step]. unfold do_assign, obj. rewrite Eo. cbn [bind]. unfold alloc, release. cbn [m_blk].
  rewrite upd_other by lia. rewrite Hb. cbn [bind s_obj]. rewrite upd_same. cbn [bind s_mem].
  unfold v_getData, map_read, block_at. cbn [v_map v_rows v_cols m_blk]. rewrite upd_other by lia. rewrite upd_same. cbn [bind].
  unfold map_ok. cbn [b_len]. rewrite len_cols, !(proj2 (Nat.leb_le _ _)) by lia. cbn [andb require].
  rewrite A, B, C. replace (forallb _ _) with false; [reflexivity|]. symmetry. apply not_true_iff_false. intro Hf.
  rewrite forallb_forall in Hf. specialize (Hf 0). rewrite forallb_forall in Hf.
  assert (is_set (mkBlock (val_r v * ((val_d v + 1) * val_n v)) (fun _ => None) : Block S) ((0 + 0) * val_r v + 0) = true) as Hc.
  { apply Hf; apply in_seq; [nia|lia]. }
  discriminate Hc.
Qed.
Lemma exec_self_assign : forall (ops : list (Op S)) t x v, Forall no_self ops -> value_exec ops = Ok t ->
  t x = Some v -> 0 < val_r v -> 0 < val_n v -> exec (ops ++ [OAssign x x]) = UB.
Proof.
  intros ops t x v Hns Ev Et Hr Hn. assert (rel (state0 : State) (fun _ => None)) as R0.
  { split; [intros y; exact I|]. intros y z o o' E. discriminate E. }
  pose proof (exec_sim_from ops state0 (fun _ => None) R0 Hns) as Hs. unfold value_exec in Ev. rewrite Ev in Hs.
  destruct Hs as (s & E & R). unfold exec.
  assert (forall l1 (l2 : list (Op S)) a, foldM step a (l1 ++ l2) = bind (foldM step a l1) (fun c => foldM step c l2)) as App.
  { induction l1 as [|c l1 IH]; intros l2 a; [reflexivity|]. cbn [app foldM]. destruct (step a c); cbn [bind]; auto. }
  rewrite App, E. cbn [bind foldM]. now rewrite (self_assign s t x v R Et Hr Hn).
Qed.

(** ** Vectors *)
Lemma vec_roundtrip : forall (m : Mem S) r d n Y, 1 <= n ->
  let '(m1, w) := w_new m r d n in
  match w_setData m1 w Y with
  | Ok m2 => mrows Y = r /\ mcols Y = (d + 1) * n /\
      exists X, w_getData m2 w = Ok X /\ mrows X = r /\ mcols X = n * (d + 1) /\
      (forall p c, p < r -> c < n * (d + 1) -> X p c = Y p c) /\
      (forall a, a < m_next m -> m_blk m2 a = m_blk m a)
  | Abort => mrows Y <> r \/ mcols Y <> (d + 1) * n
  | UB => False
  end.
Proof.
  intros m r d n Y Hn. unfold w_new, alloc. unfold w_setData. cbn [w_n w_r w_d w_space].
  rewrite (proj2 (Nat.leb_le 1 n) Hn). cbn [require].
  destruct (Nat.eqb_spec (mrows Y) r) as [Er|]; [|now left]. destruct (Nat.eqb_spec (mcols Y) ((d + 1) * n)) as [Ec|]; [|now right].
  cbn [check]. match goal with |- context [copy_in ?mm ?a Y _] => destruct (copy_ok mm a (mkBlock (space_len r d n) (fun _ => None)) r d n Y) as (b & E & Hs) end.
  - cbn. apply upd_same.
  - reflexivity.
  - exact Er.
  - exact Ec.
  - rewrite E. split; [exact Er|]. split; [exact Ec|]. unfold w_getData. cbn [w_n w_r w_d w_space].
    rewrite (proj2 (Nat.leb_le 1 n) Hn). cbn [require]. rewrite (Nat.mul_comm n (d + 1)).
    match type of E with _ = Ok ?mm => destruct (read_ok mm (m_next m) b (of_matrix r d n Y) 0 ((d + 1) * n) (put_same _ _ _) Hs) as (X & EX & RX & CX & VX) end; [cbn; lia|].
    exists X. split; [exact EX|]. split; [exact RX|]. split; [exact CX|]. split.
    + intros p c Hp Hc. destruct (decomp n d c Hc) as (i & q & Hi & Hq & Ei). rewrite (VX i p q c); cbn [val_n val_r val_d of_matrix val] in *; try lia.
      now rewrite Ei.
    + intros a Ha. rewrite put_other by lia. cbn. now rewrite upd_other by lia.
Qed.

Lemma vec_uninit : forall (m : Mem S) r d n, 0 < r -> 1 <= n -> let '(m1, w) := w_new m r d n in w_getData m1 w = UB.
Proof.
  intros m r d n Hr Hn. unfold w_new, alloc, w_getData. cbn [w_n w_r w_d w_space]. rewrite (proj2 (Nat.leb_le 1 n) Hn). cbn [require].
  unfold map_read, block_at. cbn [m_blk]. rewrite upd_same. cbn [bind]. destruct (map_ok _ _ _ _ _ _); [|reflexivity]. cbn [require].
  replace (forallb _ _) with false; [reflexivity|]. symmetry. apply not_true_iff_false. intro Hf.
  rewrite forallb_forall in Hf. specialize (Hf 0). rewrite forallb_forall in Hf.
  assert (is_set (mkBlock (space_len r d n) (fun _ => None) : Block S) ((0 + 0) * r + 0) = true) as Hc.
  { apply Hf; apply in_seq; nia. }
  discriminate Hc.
Qed.

Lemma vec_copy_double_free : forall (m : Mem S) r d n,
  let '(m1, w) := w_new m r d n in
  exists m2, w_delete m1 (w_copy w) = Ok m2 /\ w_delete m2 w = UB.
Proof.
  intros m r d n. unfold w_new, alloc, w_delete, w_copy, release. cbn [w_space m_blk]. rewrite upd_same.
  eexists. split; [reflexivity|]. cbn. now rewrite upd_same.
Qed.
End Proofs.
