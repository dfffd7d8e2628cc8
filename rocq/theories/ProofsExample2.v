(** The example's blocks, costs and robot graphs (C16). *)
From Coq Require Import List NArith Bool Arith Lia Permutation Reals Lra.
From Verif Require Import Base SMap Num RSum ModelTypes ModelPoseGraph ModelAgent ModelExample SpecPoseGraph SpecPGHist SpecCost SpecExample ProofsPoseGraph ProofsPGHist ProofsCost4 ProofsExample.
Import ListNotations.
Local Open Scope N_scope.
Local Open Scope res_scope.

(** ** Reassembly *)
Lemma range_S m : range 0 (m + 1) = range 0 m ++ [m].
Proof.
  unfold range. replace (N.to_nat (m + 1 - 0)) with (Datatypes.S (N.to_nat (m - 0))) by lia. rewrite seq_S, map_app. cbn [map Nat.add]. do 2 f_equal. lia.
Qed.

Section B.
Context {S : Type} `{Num S}.
Variables (n m : N) (d r : nat).
Hypothesis Hs : sizes_ok n m.
Variables (X0 : Mx S) (Xs : N -> Mx S).
Hypothesis HX0 : mrows X0 = r /\ mcols X0 = (N.to_nat n * Datatypes.S d)%nat.
Hypothesis HXs : forall k, k < m -> mrows (Xs k) = r /\ mcols (Xs k) = (N.to_nat (size_of n m k) * Datatypes.S d)%nat.

Definition write_robot (X : Mx S) (robot : N) : res (Mx S) :=
  let '(c, w) := robot_cols d n m robot in
  require (Nat.eqb (mrows (Xs robot)) r && Nat.eqb (mcols (Xs robot)) w && Nat.leb (c + w) (mcols X)) (Ok (msetblock X 0 c (Xs robot))).
Definition colof (p : N) (c : nat) : nat := (N.to_nat p * Datatypes.S d + c)%nat.

Lemma write_ok j : j <= m -> exists X, foldM write_robot X0 (range 0 j) = Ok X /\ mrows X = r /\ mcols X = mcols X0 /\
  forall k l a c, k < j -> l < size_of n m k -> (a < r)%nat -> (c <= d)%nat -> X a (colof (k * (n / m) + l) c) = Xs k a (colof l c).
Proof.
  induction j as [|j IH] using N.peano_ind; intros Hj.
  - exists X0. split; [reflexivity|]. split; [apply HX0|]. split; [reflexivity|]. intros; lia.
  - rewrite <- N.add_1_r in *. destruct IH as (X & E & Rx & Cx & V); [lia|]. rewrite range_S, foldM_app, E. cbn [bind foldM].
    unfold write_robot. rewrite cols_eq by (auto; lia). destruct (HXs j ltac:(lia)) as [Rj Cj]. rewrite Rj, Cj, !Nat.eqb_refl, Cx, (proj2 HX0).
    pose proof (size_pos n m j Hs ltac:(lia)) as [Z1 Z2].
    assert (L : (N.to_nat (j * (n / m)) * Datatypes.S d + N.to_nat (size_of n m j) * Datatypes.S d <=? N.to_nat n * Datatypes.S d)%nat = true).
    { apply Nat.leb_le. rewrite <- Nat.mul_add_distr_r. apply Nat.mul_le_mono_r. lia. }
    rewrite L. cbn [andb require]. eexists. split; [reflexivity|]. unfold msetblock. cbn [mrows mcols]. split; [exact Rx|]. split; [rewrite <- (proj2 HX0); exact Cx|].
    intros k l a c Hk Hl Ha Hc. cbn [Num.mat]. rewrite Rj, Cj. set (s0 := N.to_nat (j * (n / m))) in *. set (z := N.to_nat (size_of n m j)) in *.
    destruct (N.eq_dec k j) as [->|Hne].
    + assert (E1 : colof (j * (n / m) + l) c = (s0 * Datatypes.S d + colof l c)%nat) by (unfold colof, s0; rewrite N2Nat.inj_add; lia).
      rewrite E1. assert (T : (colof l c < z * Datatypes.S d)%nat).
      { unfold colof. assert (N.to_nat l + 1 <= z)%nat by (unfold z; lia). nia. }
      destruct (Nat.leb_spec 0 a); [|lia]. destruct (Nat.ltb_spec a (0 + r)); [|lia].
      destruct (Nat.leb_spec (s0 * Datatypes.S d) (s0 * Datatypes.S d + colof l c)); [|lia].
      destruct (Nat.ltb_spec (s0 * Datatypes.S d + colof l c) (s0 * Datatypes.S d + z * Datatypes.S d)); [|lia]. cbn [andb]. f_equal; lia.
    + assert (k < j) by lia. rewrite V by (auto; lia).
      assert (T : (colof (k * (n / m) + l) c < s0 * Datatypes.S d)%nat).
      { assert (B : k * (n / m) + l < j * (n / m)).
        { unfold size_of in Hl. destruct (N.eqb_spec (k + 1) m); [lia|]. assert ((k + 1) * (n / m) <= j * (n / m)) by (apply N.mul_le_mono_r; lia). lia. }
        unfold colof, s0. assert (N.to_nat (k * (n / m) + l) + 1 <= N.to_nat (j * (n / m)))%nat by lia. nia. }
      destruct (Nat.leb_spec (s0 * Datatypes.S d) (colof (k * (n / m) + l) c)); [lia|]. rewrite !andb_false_r. reflexivity.
Qed.
Theorem central_formed : exists X, form_central d r n m (fun k => Some (Xs k)) X0 = Ok X /\ mrows X = r /\ mcols X = (N.to_nat n * Datatypes.S d)%nat /\
  forall k l a c, k < m -> l < size_of n m k -> (a < r)%nat -> (c <= d)%nat -> X a (colof (k * (n / m) + l) c) = Xs k a (colof l c).
Proof. destruct (write_ok m (N.le_refl m)) as (X & E & Rx & Cx & V). exists X. split; [exact E|]. rewrite Cx. split; [exact Rx|]. split; [apply HX0|exact V]. Qed.
End B.

Theorem central_roundtrip : forall S (HS : Num S) n m d r (X : Mx S), sizes_ok n m -> mrows X = r -> mcols X = (N.to_nat n * Datatypes.S d)%nat ->
  exists X', form_central d r n m (fun k => Some (robot_block d r n m k X)) X = Ok X' /\ mx_eq X' X.
Proof.
  intros S HS n m d r X Hs Rx Cx. destruct (central_formed n m d r Hs X (fun k => robot_block d r n m k X)) as (X' & E & R' & C' & V); auto.
  - intros k Hk. unfold robot_block. rewrite cols_eq by auto. split; reflexivity.
  - exists X'. split; [exact E|]. split; [congruence|]. split; [congruence|]. rewrite R', C'. intros a j Ha Hj.
    assert (Hd : (Datatypes.S d <> 0)%nat) by lia. pose proof (Nat.div_mod j (Datatypes.S d) Hd) as D. pose proof (Nat.mod_upper_bound j (Datatypes.S d) Hd) as M.
    set (p := N.of_nat (j / Datatypes.S d)) in *. assert (Hp : p < n).
    { unfold p. assert (j / Datatypes.S d < N.to_nat n)%nat by (apply Nat.div_lt_upper_bound; auto; lia). lia. }
    pose proof (owner_owns n m p Hs Hp) as O. apply (owns_size n m _ p Hs) in O. set (k := owner n m p) in *.
    specialize (V k (p - k * (n / m)) a (j mod Datatypes.S d)%nat ltac:(lia) ltac:(lia) Ha ltac:(lia)).
    replace (k * (n / m) + (p - k * (n / m))) with p in V by lia.
    replace (colof d p (j mod Datatypes.S d)) with j in V by (unfold colof, p; rewrite Nat2N.id; lia). rewrite V.
    unfold robot_block. rewrite cols_eq by (auto; lia). unfold mblock. cbn [Num.mat]. f_equal. unfold colof, p. rewrite N2Nat.inj_sub, Nat2N.id. 
    set (q := (j / Datatypes.S d)%nat) in *. set (w := (j mod Datatypes.S d)%nat) in *. set (s0 := N.to_nat (k * (n / m))).
    assert (L : (s0 <= q)%nat) by (unfold p, s0 in *; lia). pose proof (Nat.mul_le_mono_r _ _ (Datatypes.S d) L). rewrite Nat.mul_sub_distr_r. lia.
Qed.

(** ** Cost *)
Lemma nsumL_F2 {A B} (f : A -> R) (g : B -> R) l1 l2 : Forall2 (fun a b => f a = g b) l1 l2 -> nsumL f l1 = nsumL g l2.
Proof. unfold nsumL. generalize (n0 : R). intros z F. revert z. induction F; intros z; cbn [fold_left]; [reflexivity|]. rewrite H. auto. Qed.

Lemma blk_eq n m d r k (X : Mx R) p l a c : sizes_ok n m -> owns n m k p -> p = k * (n / m) + l -> 
  pose_blk d (robot_block d r n m k X) (N.to_nat l) a c = pose_blk d X (N.to_nat p) a c.
Proof.
  intros Hs O ->. apply (owns_size n m _ _ Hs) in O. unfold pose_blk, robot_block. rewrite cols_eq by (auto; lia). unfold mblock. cbn [Num.mat]. f_equal.
  rewrite N2Nat.inj_add. lia.
Qed.
Theorem same_cost : forall n m r d (ds ds' : list (Meas R)) (X : Mx R), sizes_ok n m -> Forall2 (relabelled n m) ds ds' -> Forall (fun e => mweight e = 1%R) ds ->
  central_cost r d ds' (range 0 m) (fun _ => []) (fun k => robot_block d r n m k X) = dataset_cost r d ds X.
Proof.
  intros n m r d ds ds' X Hs F W. unfold central_cost, dataset_cost.
  assert (Z : nsumL (fun k => nsumL (fun kv : N * Mx R => prior_cost r d (snd kv) (pose_blk d (robot_block d r n m k X) (N.to_nat (fst kv)))) []) (range 0 m) = 0%R).
  { unfold nsumL at 1. generalize (range 0 m). induction l as [|x l IH]; [reflexivity|]. cbn [fold_left]. cbn. cbn in IH. rewrite Rplus_0_r. exact IH. }
  rewrite Z, Rplus_0_r. f_equal. symmetry. apply nsumL_F2. revert W. induction F as [|e e' ds ds' (O1 & O2 & P1 & P2 & ER & Et & Ek & Eta & _ & Ew) F IH]; intros W; constructor; [|apply IH; inversion W; auto].
  inversion W; subst. unfold central_edge.
  assert (E : forall Xi Xj, edge_cost r d e Xi Xj = edge_cost r d e' Xi Xj).
  { intros. unfold edge_cost. rewrite ER, Et, Ek, Eta, Ew, H1. reflexivity. }
  rewrite E. apply edge_cost_ext; intros a c _ _; symmetry; apply blk_eq; auto.
Qed.

(** ** The robots' graphs *)
Section G.
Context {S : Type} `{Num S}.
Implicit Types e : Meas S.


Definition key e : N * N * N * N := (mr1 e, mr2 e, mp1 e, mp2 e).
Lemma same_key a b : same_edgeb a b = true <-> key a = key b.
Proof.
  unfold same_edgeb, key. rewrite !andb_true_iff, !N.eqb_eq. split; [intros (((-> & ->) & ->) & ->); reflexivity|intros E; injection E; auto].
Qed.
Lemma filter_yes {A} (f : A -> bool) l : (forall x, In x l -> f x = true) -> filter f l = l.
Proof. induction l as [|x l IH]; intros F; [reflexivity|]. cbn [filter]. rewrite (F x (or_introl eq_refl)). f_equal. apply IH. intros; apply F; right; auto. Qed.
Lemma filter_no {A} (f : A -> bool) l : (forall x, In x l -> f x = false) -> filter f l = [].
Proof. induction l as [|x l IH]; intros F; [reflexivity|]. cbn [filter]. rewrite (F x (or_introl eq_refl)). apply IH. intros; apply F; right; auto. Qed.
Lemma firsts_id (L : list (Meas S)) : NoDup (map key L) -> firsts L = L.
Proof.
  induction L as [|a L IH]; [reflexivity|]. cbn [map]. intros N1. inversion N1; subst. cbn [firsts]. rewrite IH by auto. f_equal. apply filter_yes. intros x Hx.
  destruct (same_edgeb a x) eqn:E; [|reflexivity]. apply same_key in E. exfalso. apply H2. rewrite E. apply in_map, Hx.
Qed.

Lemma filter3 {A} (f g h : A -> bool) l : (forall x, In x l -> f x = true -> g x = false /\ h x = false) -> (forall x, In x l -> g x = true -> h x = false) ->
  Permutation (filter f l ++ filter g l ++ filter h l) (filter (fun x => f x || g x || h x) l).
Proof.
  induction l as [|x l IH]; intros F G; [constructor|]. cbn [filter]. specialize (IH (fun y Hy => F y (or_intror Hy)) (fun y Hy => G y (or_intror Hy))).
  destruct (f x) eqn:Ef; [destruct (F x (or_introl eq_refl) Ef) as [-> ->]; cbn [orb app]; constructor; exact IH|].
  destruct (g x) eqn:Eg; [rewrite (G x (or_introl eq_refl) Eg); cbn [orb app]; apply Permutation_sym, Permutation_cons_app, Permutation_sym; exact IH|].
  destruct (h x); cbn [orb]; [|exact IH]. rewrite app_assoc. apply Permutation_sym, Permutation_cons_app, Permutation_sym. rewrite <- app_assoc. exact IH.
Qed.
Lemma NoDup_map_filter {A B} (k : A -> B) f l : NoDup (map k l) -> NoDup (map k (filter f l)).
Proof.
  induction l as [|x l IH]; intros N1; [constructor|]. cbn [map] in N1. inversion N1; subst. cbn [filter]. destruct (f x); [|auto]. cbn [map]. constructor; auto.
  intros I. apply H2. apply in_map_iff in I. destruct I as (y & E & I). apply filter_In in I. rewrite <- E. apply in_map, I.
Qed.

Variables n m : N.
Hypothesis Hs : sizes_ok n m.
Notation rl := (relabel n m).

Lemma rl_kinds k e : edge_in n e ->
  is_odom k (rl e) = od n m k e /\ is_priv k (rl e) = pr n m k e /\ is_shared k (rl e) = one_end n m k e /\ ids_ok (rl e) /\ relevantb k (rl e) = od n m k e || pr n m k e || one_end n m k e.
Proof.
  intros He. destruct (relabel_ok n m Hs e He) as (O1 & O2 & P1 & P2 & _). destruct He as [H1 H2].
  pose proof (proj1 (owns_owner n m _ _ Hs H1) O1) as E1. pose proof (proj1 (owns_owner n m _ _ Hs H2) O2) as E2.
  unfold is_odom, is_priv, is_shared, relevantb, od, pr, one_end, both. rewrite !(ownsb_owner n m k) by auto. rewrite <- E1, <- E2, !(N.eqb_sym k).
  assert (Hn : (mr1 (rl e) =? k) && (mr2 (rl e) =? k) = true -> (mp2 (rl e) =? mp1 (rl e) + 1) = next_pose e).
  { intros T. apply andb_true_iff in T as [T1 T2]. apply N.eqb_eq in T1, T2. rewrite T1, T2 in *. unfold next_pose. apply eq_true_iff_eq. rewrite !N.eqb_eq. lia. }
  split; [|split; [|split; [|split]]].
  - destruct ((mr1 (rl e) =? k) && (mr2 (rl e) =? k)) eqn:T; [|reflexivity]. cbn [andb]. auto.
  - destruct ((mr1 (rl e) =? k) && (mr2 (rl e) =? k)) eqn:T; [|reflexivity]. cbn [andb]. rewrite Hn by auto. reflexivity.
  - destruct (mr1 (rl e) =? k), (mr2 (rl e) =? k); reflexivity.
  - apply owns_iff in O1, O2. destruct Hs as (_ & _ & ? & ?). assert (mp1 (rl e) <= mp1 e) by (rewrite P1; rewrite N.add_comm; apply N.le_add_r). assert (mp2 (rl e) <= mp2 e) by (rewrite P2; rewrite N.add_comm; apply N.le_add_r). unfold ids_ok. lia.
  - destruct (mr1 (rl e) =? k), (mr2 (rl e) =? k), (next_pose e); reflexivity.
Qed.
Lemma rl_key e e' : edge_in n e -> edge_in n e' -> key (rl e) = key (rl e') -> pair_of e = pair_of e'.
Proof.
  intros He He'. destruct (relabel_ok n m Hs e He) as (_ & _ & P1 & P2 & _). destruct (relabel_ok n m Hs e' He') as (_ & _ & P1' & P2' & _).
  revert P1 P2 P1' P2'. generalize (rl e) (rl e'). intros x y P1 P2 P1' P2'. unfold key, pair_of. intros E. injection E as A B C D. rewrite P1, P2, P1', P2', A, B, C, D. reflexivity.
Qed.
Lemma nodup_rl l : Forall (edge_in n) l -> NoDup (map pair_of l) -> NoDup (map key (map rl l)).
Proof.
  induction l as [|e l IH]; intros F N1; [constructor|]. cbn [map] in *. inversion F; inversion N1; subst. constructor; auto.
  intros I. rewrite map_map in I. apply in_map_iff in I. destruct I as (e' & E & I). apply H6. rewrite Forall_forall in H3.
  rewrite <- (rl_key e' e (H3 _ I) H2 E). apply in_map, I.
Qed.
Lemma filter_map_rl (f g : Meas S -> bool) l : (forall e, In e l -> f (rl e) = g e) -> filter f (map rl l) = map rl (filter g l).
Proof.
  induction l as [|e l IH]; intros E; [reflexivity|]. cbn [map filter]. rewrite (E e (or_introl eq_refl)). rewrite IH by (intros; apply E; right; auto).
  destruct (g e); reflexivity.
Qed.

Definition robot_input k (ds : list (Meas S)) : list (Meas S) := map rl (filter (od n m k) ds) ++ map rl (filter (pr n m k) ds) ++ map rl (filter (one_end n m k) ds).
Lemma disjoint_kinds k (ds : list (Meas S)) : Forall (edge_in n) ds ->
  (forall x, In x ds -> od n m k x = true -> pr n m k x = false /\ one_end n m k x = false) /\ (forall x, In x ds -> pr n m k x = true -> one_end n m k x = false).
Proof.
  intros _. unfold od, pr, one_end, both. split; intros x _; destruct (ownsb n m k (mp1 x)), (ownsb n m k (mp2 x)), (next_pose x); cbn; auto.
Qed.
Lemma input_perm k ds : Forall (edge_in n) ds -> Permutation (robot_input k ds) (filter (relevantb k) (map rl ds)).
Proof.
  intros F. unfold robot_input. rewrite <- !map_app. destruct (disjoint_kinds k ds F) as [D1 D2].
  rewrite (filter_map_rl _ (fun e => od n m k e || pr n m k e || one_end n m k e)).
  - apply Permutation_map, filter3; auto.
  - intros e He. rewrite Forall_forall in F. apply (rl_kinds k e (F e He)).
Qed.
Lemma input_kept k ds : Forall (edge_in n) ds -> NoDup (map pair_of ds) -> kept k (robot_input k ds) = robot_input k ds.
Proof.
  intros F N1. pose proof (input_perm k ds F) as P. unfold kept. rewrite filter_yes.
  - apply firsts_id. apply (Permutation_NoDup (Permutation_map key (Permutation_sym P))). apply NoDup_map_filter. apply nodup_rl; auto.
  - intros x Hx. apply (Permutation_in _ P) in Hx. apply filter_In in Hx. apply Hx.
Qed.
Lemma input_split k ds : Forall (edge_in n) ds ->
  filter (is_odom k) (robot_input k ds) = map rl (filter (od n m k) ds) /\
  filter (is_priv k) (robot_input k ds) = map rl (filter (pr n m k) ds) /\
  filter (is_shared k) (robot_input k ds) = map rl (filter (one_end n m k) ds).
Proof.
  intros F. destruct (disjoint_kinds k ds F) as [D1 D2]. rewrite Forall_forall in F. unfold robot_input. rewrite !filter_app.
  assert (G : forall f g h, (forall e, In e ds -> f (rl e) = g e) -> (forall x, In x ds -> h x = true -> g x = false) -> filter f (map rl (filter h ds)) = []).
  { intros f g h E Z. apply filter_no. intros x Hx. apply in_map_iff in Hx. destruct Hx as (e & <- & He). apply filter_In in He as [He Hh]. rewrite E by auto. auto. }
  assert (G2 : forall f g, (forall e, In e ds -> f (rl e) = g e) -> filter f (map rl (filter g ds)) = map rl (filter g ds)).
  { intros f g E. apply filter_yes. intros x Hx. apply in_map_iff in Hx. destruct Hx as (e & <- & He). apply filter_In in He as [He Hh]. rewrite E by auto. auto. }
  assert (K1 : forall e, In e ds -> is_odom k (rl e) = od n m k e) by (intros e He; apply (rl_kinds k e (F e He))).
  assert (K2 : forall e, In e ds -> is_priv k (rl e) = pr n m k e) by (intros e He; apply (rl_kinds k e (F e He))).
  assert (K3 : forall e, In e ds -> is_shared k (rl e) = one_end n m k e) by (intros e He; apply (rl_kinds k e (F e He))).
  assert (D12 : forall x, In x ds -> pr n m k x = true -> od n m k x = false).
  { intros x Hx T. destruct (od n m k x) eqn:E; [|reflexivity]. rewrite (proj1 (D1 x Hx E)) in T. discriminate. }
  assert (D13 : forall x, In x ds -> one_end n m k x = true -> od n m k x = false).
  { intros x Hx T. destruct (od n m k x) eqn:E; [|reflexivity]. rewrite (proj2 (D1 x Hx E)) in T. discriminate. }
  assert (D23 : forall x, In x ds -> one_end n m k x = true -> pr n m k x = false).
  { intros x Hx T. destruct (pr n m k x) eqn:E; [|reflexivity]. rewrite (D2 x Hx E) in T. discriminate. }
  rewrite (G2 _ _ K1), (G2 _ _ K2), (G2 _ _ K3).
  rewrite (G _ _ (pr n m k) K1 D12), (G _ _ (one_end n m k) K1 D13), (G _ _ (od n m k) K2 (fun x Hx T => proj1 (D1 x Hx T))), (G _ _ (one_end n m k) K2 D23),
    (G _ _ (od n m k) K3 (fun x Hx T => proj2 (D1 x Hx T))), (G _ _ (pr n m k) K3 D2).
  cbn [app]. rewrite !app_nil_r. auto.
Qed.
Theorem robot_stores k r d ds : (d <= r)%nat -> Forall (edge_in n) ds -> Forall (shape_ok d) ds -> NoDup (map pair_of ds) ->
  exists g, (do g0 <- newPoseGraph k r d; setMeasurements g0 (robot_input k ds)) = Ok g /\
    pg_odom g = map rl (filter (od n m k) ds) /\ pg_priv g = map rl (filter (pr n m k) ds) /\ pg_shared g = map rl (filter (one_end n m k) ds).
Proof.
  intros Hd F Sh N1. assert (A : forall e, In e (robot_input k ds) -> exists e0, In e0 ds /\ e = rl e0).
  { intros e He. apply (Permutation_in _ (input_perm k ds F)) in He. apply filter_In in He as [He _]. apply in_map_iff in He. destruct He as (e0 & <- & I). eauto. }
  rewrite Forall_forall in F, Sh.
  destruct (store_exact k r d (robot_input k ds)) as (g & E & E1 & E2 & E3); auto.
  - apply Forall_forall. intros e He. destruct (A e He) as (e0 & I & ->). apply (rl_kinds k e0 (F e0 I)).
  - apply Forall_forall. intros e He. destruct (A e He) as (e0 & I & ->). exact (Sh e0 I).
  - assert (F' : Forall (edge_in n) ds) by (apply Forall_forall; auto). rewrite (input_kept k ds F' N1) in E1, E2, E3. destruct (input_split k ds F') as (I1 & I2 & I3).
    exists g. split; [|rewrite E1, E2, E3; auto]. rewrite <- E. unfold newPoseGraph. destruct (Nat.leb d r); [|reflexivity]. cbn [check bind]. unfold setMeasurements, pg_run.
    change (pg_empty (pg_empty (mkPG k r d 0 [] [] [] [] [] [] [] [] None None None [] false []))) with (pg_empty (mkPG k r d 0 [] [] [] [] [] [] [] [] None None (@None (Mx S)) [] false [])).
    generalize (pg_empty (mkPG k r d 0 [] [] [] [] [] [] [] [] None None (@None (Mx S)) [] false [])) as g0. generalize (robot_input k ds) as l.
    induction l as [|e l IH]; intros g0; [reflexivity|]. cbn [map foldM pg_step]. destruct (addMeasurement g0 e); cbn [bind]; auto.
Qed.
End G.
