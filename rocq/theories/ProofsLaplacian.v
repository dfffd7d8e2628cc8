(** The connection Laplacian: when its construction is defined, and its size. *)
From Coq Require Import List NArith Bool Lia Permutation Arith.
From Verif Require Import Base SMap Num ModelTypes ModelPoseGraph SpecPoseGraph SpecPGHist
  ProofsPoseGraph ProofsPGHist ProofsPGData.
Import ListNotations.
Local Open Scope nat_scope.
Local Open Scope res_scope.

Section PG.
Context {S : Type} `{Num S}.
Implicit Types (g : PoseGraph S) (m : Meas S).

Definition pos (t : nat * nat * S) : nat * nat := match t with (i, j, _) => (i, j) end.

Lemma positions_unique_NoDup (ts : list (trip S)) : positions_unique ts = true <-> NoDup (map pos ts).
Proof.
  induction ts as [|[[i j] v] ts IH]; simpl.
  - split; auto. constructor.
  - rewrite andb_true_iff, negb_true_iff, IH. split.
    + intros [E N]. constructor; auto. rewrite in_map_iff. intros [[[a b] w] [Ep Hin]].
      simpl in Ep. inversion Ep; subst. 
      assert (existsb (fun t => match t with (a, b, _) => (a =? i) && (b =? j) end) ts = true) as C.
      { apply existsb_exists. exists (i, j, w). rewrite !Nat.eqb_refl. auto. }
      congruence.
    + intros N. inversion N; subst. split; auto.
      match goal with |- existsb ?f ts = false => destruct (existsb f ts) eqn:E; auto end.
      apply existsb_exists in E. destruct E as [[[a b] w] [Hin E]]. rewrite andb_true_iff, !Nat.eqb_eq in E. destruct E; subst.
      exfalso. apply H2. apply in_map_iff. exists (i, j, w). auto.
Qed.

Lemma in_range_iff rows cols (ts : list (trip S)) : in_range rows cols ts = true <->
  forall i j v, In (i, j, v) ts -> i < rows /\ j < cols.
Proof.
  unfold in_range. rewrite forallb_forall. split.
  - intros E i j v Hin. specialize (E _ Hin). simpl in E. rewrite andb_true_iff, !Nat.ltb_lt in E. auto.
  - intros E [[i j] v] Hin. rewrite andb_true_iff, !Nat.ltb_lt. eauto.
Qed.

(** Entries of one measurement. *)
Lemma incidence_in d k m i j v : In (i, j, v) (incidence_entries d k m) ->
  exists r c, r <= d /\ c <= d /\ j = k * Datatypes.S d + c /\
    (i = N.to_nat (mp1 m) * Datatypes.S d + r \/ i = N.to_nat (mp2 m) * Datatypes.S d + r).
Proof.
  unfold incidence_entries. cbn zeta. rewrite !in_app_iff, in_flat_map, !in_map_iff.
  intros [(c & Hc & Hin)|[(r & E & Hr)|[[E|[]]|(r & E & Hr)]]].
  - apply in_map_iff in Hin. destruct Hin as [r [E Hr]]. apply in_seq in Hc, Hr. inversion E; subst.
    exists r, c. repeat split; try lia; auto.
  - apply in_seq in Hr. inversion E; subst. exists r, d. repeat split; try lia; auto.
  - inversion E; subst. exists d, d. repeat split; try lia; auto.
  - apply in_seq in Hr. inversion E; subst. exists r, r. repeat split; try lia; auto.
Qed.

Lemma block_inj dh a b r r' : r < dh -> r' < dh -> a * dh + r = b * dh + r' -> a = b /\ r = r'.
Proof.
  intros. assert (a = b) by nia. subst. split; auto. lia.
Qed.

Lemma NoDup_app {A} (l1 l2 : list A) : NoDup l1 -> NoDup l2 -> (forall x, In x l1 -> ~ In x l2) -> NoDup (l1 ++ l2).
Proof.
  induction l1 as [|a l1 IH]; simpl; auto. intros N1 N2 D. inversion N1; subst. constructor.
  - rewrite in_app_iff. intros [?|?]; [contradiction|]. eapply D; eauto.
  - apply IH; auto. 
Qed.

Lemma NoDup_app_inv {A} (l1 l2 : list A) : NoDup (l1 ++ l2) -> NoDup l1 /\ NoDup l2 /\ (forall x, In x l1 -> ~ In x l2).
Proof.
  induction l1 as [|a l1 IH]; simpl; intros N.
  - repeat split; auto. constructor.
  - inversion N; subst. destruct (IH H3) as (A1 & A2 & A3). rewrite in_app_iff in H2. repeat split; auto.
    + constructor; auto.
    + intros x [->|Hx] Hy; [auto|]. eapply A3; eauto.
Qed.

Lemma map_pos_flat (f h : nat -> nat) (v : nat -> nat -> S) s l :
  map pos (flat_map (fun c => map (fun r => (f r, h c, v r c)) s) l)
  = flat_map (fun c => map (fun r => (f r, h c)) s) l.
Proof.
  induction l as [|c l IH]; simpl; auto.
  transitivity (map pos (map (fun r => (f r, h c, v r c)) s) ++
    map pos (flat_map (fun c => map (fun r => (f r, h c, v r c)) s) l)); [apply map_app|].
  rewrite IH, map_map. reflexivity.
Qed.

Lemma incidence_NoDup d k m : mp1 m <> mp2 m -> NoDup (map pos (incidence_entries d k m)).
Proof.
  intros Hne. set (dh := Datatypes.S d).
  assert (HI : N.to_nat (mp1 m) <> N.to_nat (mp2 m)) by (intros E; apply N2Nat.inj in E; auto).
  unfold incidence_entries. cbn zeta. unfold trip. fold dh.
  set (i := N.to_nat (mp1 m)) in *. set (j := N.to_nat (mp2 m)) in *.
  rewrite !map_app.
  assert (E1 : map pos (flat_map (fun c => map (fun r => (i * dh + r, k * dh + c, nopp (mR m r c))) (seq 0 d)) (seq 0 d))
     = flat_map (fun c => map (fun r => (i * dh + r, k * dh + c)) (seq 0 d)) (seq 0 d)).
  { apply (map_pos_flat (fun r => i * dh + r) (fun c => k * dh + c) (fun r c => nopp (mR m r c))). }
  rewrite E1, !map_map. simpl (map pos [_]). cbn [pos].
  apply NoDup_app; [|apply NoDup_app; [|apply NoDup_app|]|].
  - (* rotation block *)
    assert (X : forall l, NoDup l -> NoDup (flat_map (fun c => map (fun r => (i * dh + r, k * dh + c)) (seq 0 d)) l)).
    { induction l as [|c l IH]; simpl; intros N; [constructor|]. inversion N; subst. apply NoDup_app; auto.
      - apply FinFun.Injective_map_NoDup; [|apply seq_NoDup]. intros a b E; inversion E; lia.
      - intros [x y] Hx Hy. apply in_map_iff in Hx. destruct Hx as [r [E Hr]]. inversion E; subst.
        apply in_flat_map in Hy. destruct Hy as [c' [Hc' Hy]]. apply in_map_iff in Hy.
        destruct Hy as [r' [E' Hr']]. inversion E'. assert (c = c') by lia. subst; auto. }
    apply X, seq_NoDup.
  - apply FinFun.Injective_map_NoDup; [|apply seq_NoDup]. intros a b E; inversion E; lia.
  - constructor; [intros []|constructor].
  - apply FinFun.Injective_map_NoDup; [|apply seq_NoDup]. intros a b E; inversion E; lia.
  - intros x [<-|[]] Hy. apply in_map_iff in Hy. destruct Hy as [r [E Hr]]. apply in_seq in Hr.
    inversion E. assert (i = j) by nia. auto.
  - intros x Hx Hy. apply in_map_iff in Hx. destruct Hx as [r [<- Hr]]. apply in_seq in Hr.
    destruct Hy as [E|Hy].
    + inversion E. lia.
    + apply in_map_iff in Hy. destruct Hy as [r' [E Hr']]. apply in_seq in Hr'. inversion E.
      assert (i = j) by nia. auto.
  - intros x Hx Hy. apply in_flat_map in Hx. destruct Hx as [c [Hc Hx]]. apply in_map_iff in Hx.
    destruct Hx as [r [<- Hr]]. apply in_seq in Hr, Hc.
    rewrite !in_app_iff in Hy. destruct Hy as [Hy|[[Hy|[]]|Hy]].
    + apply in_map_iff in Hy. destruct Hy as [r' [E Hr']]. apply in_seq in Hr'. inversion E. lia.
    + inversion Hy. lia.
    + apply in_map_iff in Hy. destruct Hy as [r' [E Hr']]. apply in_seq in Hr'. inversion E.
      assert (i = j) by nia. auto.
Qed.

Lemma incidence_self d k m : mp1 m = mp2 m -> ~ NoDup (map pos (incidence_entries d k m)).
Proof.
  intros E N. unfold incidence_entries in N. cbn zeta in N. rewrite !map_app in N.
  apply NoDup_app_inv in N. destruct N as (_ & N & _).
  apply NoDup_app_inv in N. destruct N as (_ & N & _).
  apply NoDup_app_inv in N. destruct N as (_ & _ & D).
  apply (D (N.to_nat (mp1 m) * Datatypes.S d + d, k * Datatypes.S d + d)); [left; reflexivity|].
  rewrite map_map. apply in_map_iff. exists d. rewrite E. split; [reflexivity|]. apply in_seq. lia.
Qed.

Lemma enum_in {A B} (f : nat -> A -> list B) l : forall k x,
  In x (enum k f l) <-> exists i a, nth_error l i = Some a /\ In x (f (k + i) a).
Proof.
  induction l as [|a l IH]; intros k x; simpl.
  - split; [intros []|]. intros (i & a & E & _). destruct i; discriminate.
  - rewrite in_app_iff, IH. split.
    + intros [Hx|(i & b & E & Hx)].
      * exists 0, a. rewrite Nat.add_0_r. auto.
      * exists (Datatypes.S i), b. rewrite Nat.add_succ_r. auto.
    + intros ([|i] & b & E & Hx); simpl in E.
      * inversion E; subst. rewrite Nat.add_0_r in Hx. auto.
      * right. exists i, b. rewrite Nat.add_succ_r in Hx. auto.
Qed.

Lemma enum_NoDup d ms : forall k, (forall m, In m ms -> mp1 m <> mp2 m) ->
  NoDup (map pos (enum k (incidence_entries d) ms)).
Proof.
  induction ms as [|m ms IH]; intros k Hne; simpl; [constructor|].
  rewrite map_app. apply NoDup_app.
  - apply incidence_NoDup. apply Hne. left; auto.
  - apply IH. intros; apply Hne; right; auto.
  - intros [x y] Hx Hy. apply in_map_iff in Hx, Hy.
    destruct Hx as [[[x1 y1] v1] [E1 H1]], Hy as [[[x2 y2] v2] [E2 H2]]. cbn in E1, E2.
    inversion E1; inversion E2; subst. apply incidence_in in H1. apply enum_in in H2.
    destruct H2 as (i & a & _ & H2). apply incidence_in in H2.
    destruct H1 as (r & c & _ & Hc & E & _), H2 as (r' & c' & _ & Hc' & E' & _).
    assert (k = Datatypes.S k + i) by nia. lia.
Qed.

Lemma enum_self d ms m : forall k, In m ms -> mp1 m = mp2 m ->
  ~ NoDup (map pos (enum k (incidence_entries d) ms)).
Proof.
  induction ms as [|a ms IH]; intros k; [intros []|]. intros Hin E. simpl. rewrite map_app. intros N.
  apply NoDup_app_inv in N. destruct N as (N1 & N2 & _).
  destruct Hin as [->|Hin].
  - eapply incidence_self; eauto.
  - eapply IH; eauto.
Qed.

Definition max_idx (ms : list (Meas S)) (n0 : N) : N :=
  fold_left (fun n m => let n := if (n <? mp1 m)%N then mp1 m else n in
                        if (n <? mp2 m)%N then mp2 m else n) ms n0.

Lemma edges_num_max ms : edges_num_poses ms = (max_idx ms 0 + 1)%N.
Proof. reflexivity. Qed.

Lemma num_poses_ge_gen ms : forall n0 m, 
  let r := max_idx ms n0 in
  (n0 <= r)%N /\ (In m ms -> mp1 m <= r /\ mp2 m <= r)%N.
Proof.
  induction ms as [|a ms IH]; intros b m; cbn zeta; unfold max_idx in *; simpl.
  - split; [lia|tauto].
  - set (n1 := if (_ <? mp2 a)%N then _ else _).
    assert (B : (b <= n1 /\ mp1 a <= n1 /\ mp2 a <= n1)%N).
    { unfold n1. destruct (N.ltb_spec b (mp1 a)).
      - destruct (N.ltb_spec (mp1 a) (mp2 a)); lia.
      - destruct (N.ltb_spec b (mp2 a)); lia. }
    destruct (IH n1 m) as [A1 A2]. cbn zeta in *. split; [lia|].
    intros [->|Hin]; [lia|]. auto.
Qed.

Lemma num_poses_ge ms m : In m ms -> (mp1 m < edges_num_poses ms /\ mp2 m < edges_num_poses ms)%N.
Proof.
  intros Hin. destruct (num_poses_ge_gen ms 0%N m) as [_ A]. specialize (A Hin).
  rewrite edges_num_max. cbn zeta in *. lia.
Qed.

Lemma num_poses_le_gen ms : forall n0 K, (n0 <= K)%N -> (forall m, In m ms -> mp1 m <= K /\ mp2 m <= K)%N ->
  (max_idx ms n0 <= K)%N.
Proof.
  induction ms as [|a ms IH]; intros b K Hb Hm; unfold max_idx in *; simpl; auto. apply IH.
  - destruct (Hm a (or_introl eq_refl)). destruct (b <? mp1 a)%N; destruct (_ <? mp2 a)%N; lia.
  - intros; apply Hm; right; auto.
Qed.

(** The size of the Laplacian is given by the largest index of its edges. *)
Lemma num_poses_exact ms n : ms <> [] -> (forall m, In m ms -> mp1 m < n /\ mp2 m < n)%N ->
  (exists m, In m ms /\ (mp1 m + 1 = n \/ mp2 m + 1 = n))%N -> edges_num_poses ms = n.
Proof.
  intros Hne Hlt (m & Hm & He). pose proof (num_poses_ge ms m Hm) as G.
  assert (edges_num_poses ms <= n)%N; [|lia].
  rewrite edges_num_max. destruct (N.eq_dec n 0) as [->|Hn].
  - destruct (Hlt m Hm); lia.
  - assert (max_idx ms 0 <= n - 1)%N; [|lia].
    apply num_poses_le_gen; [lia|]. intros x Hx. destruct (Hlt x Hx). lia.
Qed.

Lemma num_poses_lt ms n : (forall m, In m ms -> mp1 m + 1 < n /\ mp2 m + 1 < n)%N -> (1 < n)%N ->
  (edges_num_poses ms < n)%N.
Proof.
  intros Hlt Hn. rewrite edges_num_max.
  assert (max_idx ms 0 <= n - 2)%N; [|lia].
  apply num_poses_le_gen; [lia|]. intros x Hx. destruct (Hlt x Hx). lia.
Qed.

Definition lap_rows (ms : list (Meas S)) : nat := Datatypes.S (edges_dim ms) * N.to_nat (edges_num_poses ms).

Lemma laplacian_in_range ms :
  in_range (lap_rows ms) (Datatypes.S (edges_dim ms) * length ms) (enum 0 (incidence_entries (edges_dim ms)) ms) = true.
Proof.
  apply in_range_iff. intros i j v Hin. apply enum_in in Hin. destruct Hin as (k & m & E & Hin).
  assert (Hm : In m ms) by (eapply nth_error_In; eauto).
  assert (Hk : k < length ms) by (apply nth_error_Some; congruence).
  destruct (num_poses_ge ms m Hm) as [A B]. apply incidence_in in Hin.
  destruct Hin as (r & c & Hr & Hc & Ej & Ei). unfold lap_rows.
  set (dh := Datatypes.S (edges_dim ms)) in *.
  split.
  - assert (N.to_nat (mp1 m) < N.to_nat (edges_num_poses ms)) by lia.
    assert (N.to_nat (mp2 m) < N.to_nat (edges_num_poses ms)) by lia.
    destruct Ei as [-> | ->]; unfold dh in *; nia.
  - rewrite Ej. simpl (0 + k). unfold dh in *. nia.
Qed.

Lemma laplacian_defined ms : (forall m, In m ms -> mp1 m <> mp2 m) ->
  exists QL, constructConnectionLaplacianSE ms = Ok QL /\ mrows QL = lap_rows ms /\ mcols QL = lap_rows ms.
Proof.
  intros Hne. unfold constructConnectionLaplacianSE. cbn zeta. fold (lap_rows ms).
  rewrite laplacian_in_range.
  assert (positions_unique (enum 0 (incidence_entries (edges_dim ms)) ms) = true) as ->.
  { apply positions_unique_NoDup, enum_NoDup. auto. }
  simpl. eexists. split; [reflexivity|]. auto.
Qed.

Lemma laplacian_self ms m : In m ms -> mp1 m = mp2 m -> constructConnectionLaplacianSE ms = UB.
Proof.
  intros Hin E. unfold constructConnectionLaplacianSE. cbn zeta.
  replace (positions_unique _) with false; [rewrite andb_false_r; reflexivity|].
  symmetry. destruct (positions_unique _) eqn:P; auto. apply positions_unique_NoDup in P.
  exfalso. eapply enum_self; eauto.
Qed.

Lemma diag_in dh n (M : Mx S) i j v : In (i, j, v) (diag_triplets dh n M) <->
  exists idx r c, idx < n /\ r < dh /\ c < dh /\ i = idx * dh + r /\ j = idx * dh + c /\ v = M r (idx * dh + c).
Proof.
  unfold diag_triplets. rewrite in_flat_map. split.
  - intros [idx [Hi Hx]]. apply in_flat_map in Hx. destruct Hx as [r [Hr Hx]].
    apply in_map_iff in Hx. destruct Hx as [c [E Hc]]. apply in_seq in Hi, Hr, Hc. inversion E; subst.
    exists idx, r, c. repeat split; lia.
  - intros (idx & r & c & Hi & Hr & Hc & -> & -> & ->). exists idx. rewrite in_seq. split; [lia|].
    apply in_flat_map. exists r. rewrite in_seq. split; [lia|]. apply in_map_iff. exists c.
    rewrite in_seq. split; [reflexivity|lia].
Qed.

Lemma addDiag_ok d n (QL M : Mx S) : Datatypes.S d * n <= mrows QL -> Datatypes.S d * n <= mcols QL ->
  exists Q, addDiag (Datatypes.S d) n QL M = Ok Q /\ mrows Q = mrows QL /\ mcols Q = mcols QL.
Proof.
  intros A B. unfold addDiag. cbn zeta.
  replace (in_range _ _ _) with true; [eexists; split; [reflexivity|auto]|].
  symmetry. apply in_range_iff. intros i j v Hin. apply diag_in in Hin.
  destruct Hin as (idx & r & c & Hi & Hr & Hc & -> & -> & _). nia.
Qed.

Lemma addDiag_ub d n (QL M : Mx S) : mrows QL < Datatypes.S d * n -> addDiag (Datatypes.S d) n QL M = UB.
Proof.
  intros A. unfold addDiag. cbn zeta. replace (in_range _ _ _) with false; [reflexivity|].
  symmetry. destruct (in_range _ _ _) eqn:E; auto. exfalso.
  destruct n as [|n]; [nia|].
  assert (E' : forall i j v, In (i, j, v) (diag_triplets (Datatypes.S d) (Datatypes.S n) M) -> i < mrows QL /\ j < mcols QL)
    by (apply in_range_iff; auto).
  destruct (E' (n * Datatypes.S d + d) (n * Datatypes.S d + d) (M d (n * Datatypes.S d + d))) as [C _].
  - apply diag_in. exists n, d, d. repeat split; lia.
  - nia.
Qed.

(** ** C09 *)
Lemma local_in g m : In m (localMeasurements g) -> In m (measurements g).
Proof. unfold localMeasurements, measurements. rewrite !in_app_iff. tauto. Qed.

Lemma local_robots g m : pg_wf g -> In m (localMeasurements g) -> mr1 m = pg_id g /\ mr2 m = pg_id g.
Proof.
  intros W Hm. unfold localMeasurements in Hm. apply in_app_iff in Hm. destruct Hm as [Hm|Hm].
  - pose proof (wf_odom _ W _ Hm) as E. unfold is_odom in E. rewrite !andb_true_iff, !N.eqb_eq in E. tauto.
  - pose proof (wf_priv _ W _ Hm) as E. unfold is_priv in E. rewrite !andb_true_iff, !N.eqb_eq in E. tauto.
Qed.

Lemma local_lt g m : pg_wf g -> In m (localMeasurements g) -> (mp1 m < pg_n g /\ mp2 m < pg_n g)%N.
Proof.
  intros W Hm. destruct (wf_n _ W) as [N1 _]. pose proof (local_in _ _ Hm) as Hi.
  destruct (local_robots _ _ W Hm) as [R1 R2].
  split; apply (N1 m _ Hi); rewrite own_poses_priv by auto; simpl; auto.
Qed.

Lemma local_dim g : pg_wf g -> localMeasurements g <> [] -> edges_dim (localMeasurements g) = pg_d g.
Proof.
  intros W Hne. destruct (localMeasurements g) as [|m ms] eqn:E; [congruence|]. simpl.
  assert (Hi : In m (localMeasurements g)) by (rewrite E; left; auto).
  pose proof (wf_dims _ W _ (local_in _ _ Hi)) as D. apply dims_ok_shape in D.
  destruct D as (_ & _ & -> & ->). lia.
Qed.

Lemma Q_shape g : pg_wf g -> no_self g -> last_private g ->
  lap_rows (localMeasurements g) = Datatypes.S (pg_d g) * N.to_nat (pg_n g).
Proof.
  intros W Hs (m & Hm & He). change (pg_odom g ++ pg_priv g) with (localMeasurements g) in Hm. unfold lap_rows.
  assert (Hne : localMeasurements g <> []) by (intros E; rewrite E in Hm; destruct Hm).
  rewrite (local_dim g W Hne), (num_poses_exact _ (pg_n g)); eauto.
  intros x Hx. apply local_lt; auto.
Qed.

Lemma buildQ_shape g : pg_wf g -> no_self g -> last_private g ->
  exists o, buildQ g = Ok o /\ forall Q, o = Some Q ->
    mrows Q = Datatypes.S (pg_d g) * N.to_nat (pg_n g) /\ mcols Q = Datatypes.S (pg_d g) * N.to_nat (pg_n g).
Proof.
  intros W Hs Hl. rewrite (buildQ_spec g W).
  destruct (laplacian_defined (localMeasurements g)) as (QL & E & R & C); auto.
  rewrite E. simpl. destruct (existsb _ _).
  - eexists. split; [reflexivity|]. discriminate.
  - rewrite (Q_shape g W Hs Hl) in R, C.
    destruct (addDiag_ok (pg_d g) (N.to_nat (pg_n g)) QL (Qdiag g)) as (Q & EQ & RQ & CQ); [lia|lia|].
    rewrite EQ. simpl. eexists. split; [reflexivity|]. intros Q' EQ'. inversion EQ'; subst. lia.
Qed.

(** Never undefined behaviour in these graphs, success decided by C08. *)
Lemma construct_total g : pg_wf g -> no_self g -> last_private g ->
  exists g' b, constructDataMatrices g = Ok (g', b).
Proof.
  intros W Hs Hl. unfold constructDataMatrices.
  destruct (pg_Q g) as [Q|] eqn:HQ.
  - simpl. destruct (pg_G g); simpl; [eauto|]. unfold constructG. rewrite (buildG_spec g W). simpl.
    destruct (existsb _ _); simpl; eauto.
  - unfold constructQ. destruct (buildQ_shape g W Hs Hl) as (o & E & _). rewrite E. simpl.
    destruct o as [Q|]; simpl; [|eauto].
    destruct (pg_G g); simpl; [eauto|]. unfold constructG. rewrite (buildG_spec _ (set_Q_wf g (Some Q) W)). simpl.
    destruct (existsb _ _); simpl; eauto.
Qed.

(** If only shared edges reach the last pose, the writes leave the matrix. *)
Lemma buildQ_ub g : pg_wf g -> (1 <= pg_d g) -> pg_n g <> 0%N -> ~ last_private g -> needed_known g -> buildQ g = UB.
Proof.
  intros W Hd Hn Hl Hk. rewrite (buildQ_spec g W). apply (missing_iff g W) in Hk.
  destruct (constructConnectionLaplacianSE (localMeasurements g)) as [QL| |] eqn:E; simpl; auto.
  2:{ exfalso. eapply laplacian_no_abort; eauto. }
  rewrite Hk. rewrite addDiag_ub; [reflexivity|].
  assert (R : mrows QL = lap_rows (localMeasurements g)).
  { unfold constructConnectionLaplacianSE in E. cbn zeta in E. unfold require in E.
    destruct (_ && _); inversion E; subst. reflexivity. }
  rewrite R. unfold lap_rows.
  destruct (localMeasurements g) as [|m0 ms0] eqn:EL.
  - simpl. nia.
  - assert (Hne : localMeasurements g <> []) by (rewrite EL; discriminate).
    rewrite <- EL, (local_dim g W Hne).
    assert (edges_num_poses (localMeasurements g) < pg_n g)%N; [|nia].
    assert (Hlt : forall m, In m (localMeasurements g) -> (mp1 m + 1 < pg_n g /\ mp2 m + 1 < pg_n g)%N).
    { intros m Hm. destruct (local_lt g m W Hm) as [A B]. split.
      - assert (mp1 m + 1 <> pg_n g)%N; [|lia]. intros C. apply Hl. exists m. auto.
      - assert (mp2 m + 1 <> pg_n g)%N; [|lia]. intros C. apply Hl. exists m. auto. }
    apply num_poses_lt; auto.
    assert (Hin : In m0 (localMeasurements g)) by (rewrite EL; left; auto).
    destruct (Hlt m0 Hin). lia.
Qed.

Lemma buildQ_self g m : pg_wf g -> In m (localMeasurements g) -> mp1 m = mp2 m -> buildQ g = UB.
Proof.
  intros W Hm E. rewrite (buildQ_spec g W). rewrite (laplacian_self _ _ Hm E). reflexivity.
Qed.

End PG.
