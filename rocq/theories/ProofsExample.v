(** Partition of the multi-robot example (C16). *)
From Coq Require Import List NArith Bool Arith Lia Permutation Reals.
From Verif Require Import Base SMap Num RSum ModelTypes ModelPoseGraph ModelExample SpecPoseGraph SpecPGHist SpecCost SpecExample ProofsPoseGraph ProofsPGHist ProofsCost4.
Import ListNotations.
Local Open Scope N_scope.

Lemma range_In s e x : In x (range s e) <-> s <= x < e.
Proof.
  unfold range. rewrite in_map_iff. split.
  - intros (k & <- & Hk). apply in_seq in Hk. lia.
  - intros Hx. exists (N.to_nat (x - s)). rewrite in_seq. lia.
Qed.
Lemma range_length s e : length (range s e) = N.to_nat (e - s).
Proof. unfold range. rewrite map_length, seq_length. reflexivity. Qed.
Lemma range_NoDup s e : NoDup (range s e).
Proof. unfold range. apply FinFun.Injective_map_NoDup; [intros x y E; lia|apply seq_NoDup]. Qed.

(** ** Owners *)
Definition owner (n m p : N) : N := N.min (p / (n / m)) (m - 1).
Lemma quot_ok n m : sizes_ok n m -> 1 <= n / m /\ m * (n / m) <= n.
Proof.
  intros (A & B & _). split; [|apply N.mul_div_le; lia]. apply N.div_le_lower_bound; lia.
Qed.
Lemma owns_iff n m k p : owns n m k p <-> k < m /\ p < n /\ k * (n / m) <= p /\ (p < (k + 1) * (n / m) \/ k + 1 = m).
Proof.
  unfold owns, ownsb. rewrite !andb_true_iff, orb_true_iff, !N.ltb_lt, N.leb_le, N.eqb_eq. tauto.
Qed.
Lemma owner_owns n m p : sizes_ok n m -> p < n -> owns n m (owner n m p) p.
Proof.
  intros Hs Hp. destruct (quot_ok n m Hs) as [B1 B2]. destruct Hs as (A & B & _). apply owns_iff. unfold owner. set (b := n / m) in *.
  pose proof (N.mul_div_le p b ltac:(lia)) as L. pose proof (N.mul_succ_div_gt p b ltac:(lia)) as G.
  split; [lia|]. split; [exact Hp|]. destruct (N.min_spec (p / b) (m - 1)) as [[C E]|[C E]]; rewrite E.
  - split; [lia|]. left. lia.
  - split; [nia|]. right. lia.
Qed.
Lemma owns_unique n m k k' p : sizes_ok n m -> owns n m k p -> owns n m k' p -> k = k'.
Proof.
  intros Hs H1 H2. destruct (quot_ok n m Hs) as [B1 _]. apply owns_iff in H1, H2. destruct H1 as (A1 & _ & C1 & D1), H2 as (A2 & _ & C2 & D2).
  set (b := n / m) in *. destruct (N.lt_trichotomy k k') as [L|[E|L]]; [exfalso|exact E|exfalso].
  - destruct D1 as [D1|D1]; [|lia]. assert ((k + 1) * b <= k' * b) by (apply N.mul_le_mono_r; lia). lia.
  - destruct D2 as [D2|D2]; [|lia]. assert ((k' + 1) * b <= k * b) by (apply N.mul_le_mono_r; lia). lia.
Qed.
Lemma owns_owner n m k p : sizes_ok n m -> p < n -> owns n m k p <-> k = owner n m p.
Proof. intros Hs Hp. split; [intros O; eapply owns_unique; eauto using owner_owns|intros ->; apply owner_owns; auto]. Qed.
Lemma ownsb_owner n m k p : sizes_ok n m -> p < n -> ownsb n m k p = (k =? owner n m p).
Proof.
  intros Hs Hp. apply eq_true_iff_eq. rewrite N.eqb_eq. apply (owns_owner n m k p Hs Hp).
Qed.
Lemma size_pos n m k : sizes_ok n m -> k < m -> size_of n m k >= 1 /\ k * (n / m) + size_of n m k <= n.
Proof.
  intros Hs Hk. destruct (quot_ok n m Hs) as [B1 B2]. unfold size_of. set (b := n / m) in *.
  assert (k * b + b <= m * b) by nia. destruct (N.eqb_spec (k + 1) m); lia.
Qed.
Lemma owns_size n m k p : sizes_ok n m -> owns n m k p <-> k < m /\ k * (n / m) <= p < k * (n / m) + size_of n m k.
Proof.
  intros Hs. rewrite owns_iff. destruct (quot_ok n m Hs) as [B1 B2]. unfold size_of. set (b := n / m) in *. split.
  - intros (A & B & C & D). split; [exact A|]. assert (k * b + b <= m * b) by nia. destruct (N.eqb_spec (k + 1) m); lia.
  - intros (A & C). assert (k * b + b <= m * b) by nia. destruct (N.eqb_spec (k + 1) m); lia.
Qed.

(** ** The map *)
Section Run.
Variables n m : N.
Hypothesis Hs : sizes_ok n m.
Let b := n / m.

Lemma n_eq : ex_n n = n.
Proof. unfold ex_n, u32, two32. apply N.mod_small. apply Hs. Qed.
Lemma per_eq : per_robot n m = b.
Proof.
  unfold per_robot, u32, two32. apply N.mod_small. pose proof (quot_ok n m Hs) as [_ B]. fold b in B. destruct Hs as (A & _ & C & _). nia.
Qed.
Lemma start_eq k : k < m -> start_idx b k = k * b.
Proof.
  intros Hk. unfold start_idx, u32, two32. apply N.mod_small. pose proof (quot_ok n m Hs) as [_ B]. fold b in B. destruct Hs as (_ & _ & C & _). nia.
Qed.
Lemma end_eq k : k < m -> end_idx n b m k = k * b + size_of n m k.
Proof.
  intros Hk. unfold end_idx, size_of. fold b. pose proof (quot_ok n m Hs) as [B1 B]. fold b in B, B1. destruct Hs as (A & _ & C & D).
  destruct (N.eqb_spec k (m - 1)); destruct (N.eqb_spec (k + 1) m); try lia; try nia.
  unfold u32, two32. rewrite (N.mod_small (k + 1)) by lia. rewrite N.mod_small by nia. lia.
Qed.

Lemma inner_find (f : N -> PoseID) l : forall M p,
  mfind N.ltb p (fold_left (fun M idx => mset N.ltb idx (f idx) M) l M) = if existsb (N.eqb p) l then Some (f p) else mfind N.ltb p M.
Proof.
  induction l as [|x l IH]; intros M p; [reflexivity|]. cbn [fold_left existsb]. rewrite IH. destruct (N.eqb_spec p x) as [->|Hn]; cbn [orb].
  - destruct (existsb (N.eqb x) l); [reflexivity|]. apply mfind_mset_eq; apply Nltb_total.
  - destruct (existsb (N.eqb p) l); [reflexivity|]. apply mfind_mset_neq; [apply Nltb_total|exact Hn].
Qed.
Lemma in_range_owns k p : k < m -> existsb (N.eqb p) (range (start_idx b k) (end_idx n b m k)) = ownsb n m k p.
Proof.
  intros Hk. apply eq_true_iff_eq. rewrite existsb_exists, start_eq, end_eq by auto. rewrite (owns_size n m k p Hs : ownsb n m k p = true <-> _). fold b. split.
  - intros (x & Hx & E). apply N.eqb_eq in E as ->. apply range_In in Hx. auto.
  - intros [_ Hx]. exists p. split; [apply range_In; exact Hx|apply N.eqb_refl].
Qed.
Lemma outer_find p : p < n -> forall ks M, Forall (fun k => k < m) ks ->
  mfind N.ltb p (fold_left (fun M robot => let s := start_idx b robot in
     fold_left (fun M idx => mset N.ltb idx (mkPoseID robot (idx - s)) M) (range s (end_idx n b m robot)) M) ks M) =
  if existsb (N.eqb (owner n m p)) ks then Some (mkPoseID (owner n m p) (p - owner n m p * b)) else mfind N.ltb p M.
Proof.
  intros Hp. induction ks as [|k ks IH]; intros M F; [reflexivity|]. inversion F; subst. cbn [fold_left existsb]. rewrite IH by auto.
  destruct (existsb (N.eqb (owner n m p)) ks); [rewrite orb_true_r; reflexivity|]. rewrite orb_false_r. cbv zeta.
  rewrite (inner_find (fun idx => mkPoseID k (idx - start_idx b k))), in_range_owns by auto. rewrite ownsb_owner by auto. rewrite N.eqb_sym.
  destruct (N.eqb_spec (owner n m p) k) as [->|]; [|reflexivity]. rewrite start_eq by auto. reflexivity.
Qed.
Theorem map_find p : p < n -> mfind N.ltb p (pose_map (ex_n n) (per_robot n m) m) = Some (mkPoseID (owner n m p) (p - owner n m p * b)).
Proof.
  intros Hp. rewrite n_eq, per_eq. unfold pose_map. rewrite outer_find; auto.
  - assert (E : existsb (N.eqb (owner n m p)) (range 0 m) = true); [|rewrite E; reflexivity].
    apply existsb_exists. exists (owner n m p). split; [|apply N.eqb_refl]. apply range_In. pose proof (owner_owns n m p Hs Hp) as O. apply owns_iff in O. lia.
  - apply Forall_forall. intros k Hk. apply range_In in Hk. lia.
Qed.
Lemma outer_none p : n <= p -> forall ks M, Forall (fun k => k < m) ks -> mfind N.ltb p M = None ->
  mfind N.ltb p (fold_left (fun M robot => let s := start_idx b robot in
     fold_left (fun M idx => mset N.ltb idx (mkPoseID robot (idx - s)) M) (range s (end_idx n b m robot)) M) ks M) = None.
Proof.
  intros Hp. induction ks as [|k ks IH]; intros M F E; [exact E|]. inversion F; subst. cbn [fold_left]. apply IH; auto. cbv zeta.
  rewrite (inner_find (fun idx => mkPoseID k (idx - start_idx b k))), in_range_owns by auto.
  destruct (ownsb n m k p) eqn:O; [|exact E]. apply owns_iff in O. lia.
Qed.
Theorem map_none p : n <= p -> mfind N.ltb p (pose_map (ex_n n) (per_robot n m) m) = None.
Proof.
  intros Hp. rewrite n_eq, per_eq. apply outer_none; auto. apply Forall_forall. intros k Hk. apply range_In in Hk. lia.
Qed.

(** ** The edges *)
Context {S : Type} `{Num S}.
Implicit Types e : Meas S.
Definition relabel e : Meas S :=
  new_meas (owner n m (mp1 e)) (owner n m (mp2 e)) (mp1 e - owner n m (mp1 e) * b) (mp2 e - owner n m (mp2 e) * b) (mR e) (mt e) (mkappa e) (mtau e).
Lemma relabel_ok e : edge_in n e -> relabelled n m e (relabel e).
Proof.
  intros [H1 H2]. pose proof (owner_owns n m _ Hs H1) as O1. pose proof (owner_owns n m _ Hs H2) as O2. unfold relabelled. cbn.
  split; [exact O1|]. split; [exact O2|]. apply owns_iff in O1, O2. fold b in O1, O2 |- *. repeat (split; [first [reflexivity|lia]|]). reflexivity.
Qed.

Lemma push_map x (v : list (list (Meas S))) k : forall (g : nat -> list (Meas S)) s M, v = map g (seq s M) -> (k < M)%nat ->
  push_at k x v = Ok (map (fun j => if Nat.eqb j (s + k) then g j ++ [x] else g j) (seq s M)).
Proof.
  revert v. induction k as [|k IH]; intros v g s M -> Hk; destruct M as [|M]; try lia; cbn [seq map push_at].
  - rewrite Nat.add_0_r, Nat.eqb_refl. do 2 f_equal. apply map_ext_in. intros j Hj. apply in_seq in Hj.
    destruct (Nat.eqb_spec j s); [lia|reflexivity].
  - rewrite (IH _ g (Datatypes.S s) M eq_refl) by lia. cbn [bind]. do 2 f_equal.
    + destruct (Nat.eqb_spec s (s + Datatypes.S k)); [lia|reflexivity].
    + apply map_ext. intros j. replace (Datatypes.S s + k)%nat with (s + Datatypes.S k)%nat by lia. reflexivity.
Qed.

Definition od k e := both n m k e && next_pose e.
Definition pr k e := both n m k e && negb (next_pose e).
Definition table (f : N -> Meas S -> bool) (ds : list (Meas S)) : list (list (Meas S)) :=
  map (fun j => map relabel (filter (f (N.of_nat j)) ds)) (seq 0 (N.to_nat m)).
Lemma table_push (f : N -> Meas S -> bool) ds e k v : v = table f ds -> k < m -> (forall j, j < m -> f j e = (j =? k)) ->
  push_at (N.to_nat k) (relabel e) v = Ok (table f (ds ++ [e])).
Proof.
  intros E Hk Hf. rewrite (push_map _ _ _ _ _ _ E) by lia. f_equal. unfold table. apply map_ext_in. intros j Hj. apply in_seq in Hj.
  rewrite filter_app, map_app. cbn [filter]. rewrite Hf by lia. cbn [Nat.add].
  destruct (Nat.eqb_spec j (N.to_nat k)), (N.eqb_spec (N.of_nat j) k); try lia; [reflexivity|]. rewrite app_nil_r. reflexivity.
Qed.
Lemma table_skip (f : N -> Meas S -> bool) ds e : (forall j, j < m -> f j e = false) -> table f ds = table f (ds ++ [e]).
Proof.
  intros Hf. unfold table. apply map_ext_in. intros j Hj. apply in_seq in Hj. rewrite filter_app. cbn [filter]. rewrite Hf by lia. rewrite app_nil_r. reflexivity.
Qed.
Lemma get_eq p : p < n -> pm_get (pose_map (ex_n n) (per_robot n m) m) p = mkPoseID (owner n m p) (p - owner n m p * b).
Proof. intros Hp. unfold pm_get, u32, two32. rewrite N.mod_small by (destruct Hs as (_ & _ & ? & _); lia). rewrite map_find by auto. reflexivity. Qed.

Lemma step_table ds e : edge_in n e ->
  split_step (pose_map (ex_n n) (per_robot n m) m) (mkSplit (table od ds) (table pr ds) (table (one_end n m) ds)) e =
  Ok (mkSplit (table od (ds ++ [e])) (table pr (ds ++ [e])) (table (one_end n m) (ds ++ [e]))).
Proof.
  intros [H1 H2]. unfold split_step. rewrite !get_eq by auto. cbn [robot_id frame_id sp_odom sp_priv sp_shared].
  fold (relabel e). pose proof (owner_owns n m _ Hs H1) as O1. pose proof (owner_owns n m _ Hs H2) as O2.
  pose proof (proj1 (owns_iff _ _ _ _) O1) as O1'. pose proof (proj1 (owns_iff _ _ _ _) O2) as O2'. fold b in O1', O2'.
  assert (Ho : forall j, ownsb n m j (mp1 e) = (j =? owner n m (mp1 e))) by (intros; apply ownsb_owner; auto).
  assert (Hd : forall j, ownsb n m j (mp2 e) = (j =? owner n m (mp2 e))) by (intros; apply ownsb_owner; auto).
  destruct (N.eqb_spec (owner n m (mp1 e)) (owner n m (mp2 e))) as [E|E].
  - assert (N1 : (u32 (mp1 e - owner n m (mp1 e) * b + 1) =? mp2 e - owner n m (mp2 e) * b) = next_pose e).
    { unfold next_pose, u32, two32. rewrite N.mod_small by (destruct Hs as (_ & _ & ? & _); lia). apply eq_true_iff_eq. rewrite !N.eqb_eq. rewrite <- E in *. lia. }
    rewrite N1. destruct (next_pose e) eqn:EN.
    + rewrite (table_push od ds e _ _ eq_refl) by (first [lia|intros j _; unfold od, both; rewrite Ho, Hd, EN, <- E, andb_diag, andb_true_r; reflexivity]). cbn [bind].
      rewrite (table_skip pr ds e) by (intros j _; unfold pr; rewrite EN, andb_false_r; reflexivity).
      rewrite (table_skip (one_end n m) ds e) by (intros j _; unfold one_end; rewrite Ho, Hd, <- E, xorb_nilpotent; reflexivity). reflexivity.
    + rewrite (table_push pr ds e _ _ eq_refl) by (first [lia|intros j _; unfold pr, both; rewrite Ho, Hd, EN, <- E, andb_diag, andb_true_r; reflexivity]). cbn [bind].
      rewrite (table_skip od ds e) by (intros j _; unfold od; rewrite EN, andb_false_r; reflexivity).
      rewrite (table_skip (one_end n m) ds e) by (intros j _; unfold one_end; rewrite Ho, Hd, <- E, xorb_nilpotent; reflexivity). reflexivity.
  - assert (Hb : forall j, both n m j e = false).
    { intros j. unfold both. rewrite Ho, Hd. destruct (N.eqb_spec j (owner n m (mp1 e))), (N.eqb_spec j (owner n m (mp2 e))); try reflexivity; congruence. }
    rewrite (table_skip od ds e) by (intros j _; unfold od; rewrite Hb; reflexivity).
    rewrite (table_skip pr ds e) by (intros j _; unfold pr; rewrite Hb; reflexivity).
    unfold table. rewrite (push_map _ _ _ _ _ _ eq_refl) by lia. cbn [bind].
    rewrite (push_map _ _ _ _ _ _ eq_refl) by lia. cbn [bind]. do 2 f_equal. apply map_ext_in. intros j Hj. apply in_seq in Hj.
    rewrite filter_app, map_app. cbn [filter Nat.add]. assert (E1 : one_end n m (N.of_nat j) e = xorb (N.of_nat j =? owner n m (mp1 e)) (N.of_nat j =? owner n m (mp2 e))) by (unfold one_end; rewrite Ho, Hd; reflexivity). rewrite E1.
    destruct (Nat.eqb_spec j (N.to_nat (owner n m (mp1 e)))), (Nat.eqb_spec j (N.to_nat (owner n m (mp2 e)))),
      (N.eqb_spec (N.of_nat j) (owner n m (mp1 e))), (N.eqb_spec (N.of_nat j) (owner n m (mp2 e))); try lia; cbn [xorb map]; try reflexivity. rewrite app_nil_r. reflexivity.
Qed.
Lemma steps_table ds2 : forall ds, Forall (edge_in n) ds2 ->
  foldM (split_step (pose_map (ex_n n) (per_robot n m) m)) (mkSplit (table od ds) (table pr ds) (table (one_end n m) ds)) ds2 =
  Ok (mkSplit (table od (ds ++ ds2)) (table pr (ds ++ ds2)) (table (one_end n m) (ds ++ ds2))).
Proof.
  induction ds2 as [|e ds2 IH]; intros ds F; [rewrite app_nil_r; reflexivity|]. inversion F; subst. cbn [foldM]. rewrite step_table by auto. cbn [bind].
  rewrite IH by auto. rewrite <- !app_assoc. reflexivity.
Qed.
Theorem split_table ds : Forall (edge_in n) ds -> split_dataset n m ds = Ok (Some (mkSplit (table od ds) (table pr ds) (table (one_end n m) ds))).
Proof.
  intros F. unfold split_dataset. rewrite per_eq. pose proof (quot_ok n m Hs) as [B1 _]. fold b in B1. destruct (N.eqb_spec b 0); [lia|].
  assert (E : forall f, repeat [] (N.to_nat m) = table f []).
  { intros f. unfold table. cbn [filter map]. rewrite <- (seq_length (N.to_nat m) 0) at 1. generalize (seq 0 (N.to_nat m)). induction l; cbn; congruence. }
  rewrite (E od) at 1. rewrite (E pr) at 1. rewrite (E (one_end n m)) at 1. rewrite <- per_eq. rewrite (steps_table ds [] F). reflexivity.
Qed.
Lemma table_nth f ds k : k < m -> nth (N.to_nat k) (table f ds) [] = map relabel (filter (f k) ds).
Proof.
  intros Hk. unfold table. set (g := fun j : nat => map relabel (filter (f (N.of_nat j)) ds)).
  rewrite (nth_indep _ [] (g O)) by (rewrite map_length, seq_length; lia). rewrite map_nth, seq_nth by lia. unfold g. cbn [Nat.add]. rewrite N2Nat.id. reflexivity.
Qed.
Lemma relabel_F2 ds : Forall (edge_in n) ds -> Forall2 (relabelled n m) ds (map relabel ds).
Proof. induction 1; constructor; auto using relabel_ok. Qed.
Lemma filter_F {A} (P : A -> Prop) f l : Forall P l -> Forall P (filter f l).
Proof. intros F. apply Forall_forall. intros x Hx. apply filter_In in Hx. rewrite Forall_forall in F. apply F, Hx. Qed.
End Run.

(** ** Statements *)
Theorem pose_bijection : forall n m, sizes_ok n m ->
  (forall p, p < n -> exists q, mfind N.ltb p (pose_map (ex_n n) (per_robot n m) m) = Some q /\
     robot_id q < m /\ frame_id q < size_of n m (robot_id q) /\ p = robot_id q * (n / m) + frame_id q) /\
  (forall p, n <= p -> mfind N.ltb p (pose_map (ex_n n) (per_robot n m) m) = None) /\
  (forall k l, k < m -> l < size_of n m k -> exists! p, p < n /\ mfind N.ltb p (pose_map (ex_n n) (per_robot n m) m) = Some (mkPoseID k l)).
Proof.
  intros n m Hs. split; [|split].
  - intros p Hp. rewrite map_find by auto. eexists. split; [reflexivity|]. cbn [robot_id frame_id]. pose proof (owner_owns n m p Hs Hp) as O.
    apply (owns_size n m _ p Hs) in O. lia.
  - intros p Hp. apply map_none; auto.
  - intros k l Hk Hl. exists (k * (n / m) + l). assert (O : owns n m k (k * (n / m) + l)) by (apply owns_size; auto; lia).
    pose proof (proj1 (owns_iff _ _ _ _) O) as (_ & Hp & _). pose proof (proj1 (owns_owner n m k _ Hs Hp) O) as E. split.
    + split; [exact Hp|]. rewrite map_find by auto. rewrite <- E. do 2 f_equal. lia.
    + intros p [Hp' Ef]. rewrite map_find in Ef by auto. injection Ef as E1 E2. pose proof (owner_owns n m p Hs Hp') as O'. apply owns_iff in O'. rewrite E1 in *. lia.
Qed.

Theorem edges_split : forall S (HS : Num S) n m (ds : list (Meas S)), sizes_ok n m -> Forall (edge_in n) ds ->
  exists st, split_dataset n m ds = Ok (Some st) /\
    length (sp_odom st) = N.to_nat m /\ length (sp_priv st) = N.to_nat m /\ length (sp_shared st) = N.to_nat m /\
    forall k, k < m ->
      Forall2 (relabelled n m) (filter (fun e => both n m k e && next_pose e) ds) (nth (N.to_nat k) (sp_odom st) []) /\
      Forall2 (relabelled n m) (filter (fun e => both n m k e && negb (next_pose e)) ds) (nth (N.to_nat k) (sp_priv st) []) /\
      Forall2 (relabelled n m) (filter (one_end n m k) ds) (nth (N.to_nat k) (sp_shared st) []).
Proof.
  intros S HS n m ds Hs F. rewrite (split_table n m Hs ds F). eexists. split; [reflexivity|]. cbn [sp_odom sp_priv sp_shared].
  unfold table at 1 2 3. rewrite !map_length, seq_length. do 3 (split; [reflexivity|]).
  intros k Hk. rewrite !table_nth by auto. split; [|split]; apply relabel_F2; auto; apply filter_F; auto.
Qed.

(** Every edge is given to its robots and to no other. *)
Theorem edge_placed : forall S (HS : Num S) n m (e : Meas S), sizes_ok n m -> edge_in n e ->
  exists a b, a < m /\ b < m /\ owns n m a (mp1 e) /\ owns n m b (mp2 e) /\
    (forall k, both n m k e = true <-> a = b /\ k = a) /\ (forall k, one_end n m k e = true <-> a <> b /\ (k = a \/ k = b)).
Proof.
  intros S HS n m e Hs [H1 H2]. exists (owner n m (mp1 e)), (owner n m (mp2 e)). pose proof (owner_owns n m _ Hs H1) as O1. pose proof (owner_owns n m _ Hs H2) as O2.
  split; [apply owns_iff in O1; lia|]. split; [apply owns_iff in O2; lia|]. split; [exact O1|]. split; [exact O2|].
  unfold both, one_end. split; intros k; rewrite !ownsb_owner by auto;
    destruct (N.eqb_spec k (owner n m (mp1 e))), (N.eqb_spec k (owner n m (mp2 e))); cbn [andb xorb]; (split; [intros Ht; try discriminate|intros [? ?]]); try (destruct H0); first [congruence|reflexivity|intuition congruence].
Qed.

(** ** Blocks *)
Lemma cols_eq n m d k : sizes_ok n m -> k < m -> robot_cols d n m k = (N.to_nat (k * (n / m)) * Datatypes.S d, N.to_nat (size_of n m k) * Datatypes.S d)%nat.
Proof.
  intros Hs Hk. unfold robot_cols. rewrite (per_eq n m Hs), (n_eq n m Hs), (start_eq n m Hs), (end_eq n m Hs) by auto. f_equal. f_equal. lia.
Qed.
Theorem blocks_tile : forall n m d, sizes_ok n m ->
  fst (robot_cols d n m 0) = O /\
  (forall k, k + 1 < m -> fst (robot_cols d n m (k + 1)) = (fst (robot_cols d n m k) + snd (robot_cols d n m k))%nat) /\
  (fst (robot_cols d n m (m - 1)) + snd (robot_cols d n m (m - 1)) = N.to_nat n * Datatypes.S d)%nat.
Proof.
  intros n m d Hs. destruct (quot_ok n m Hs) as [B1 B2]. pose proof Hs as (A & _). split; [|split].
  - rewrite cols_eq by (auto; lia). reflexivity.
  - intros k Hk. rewrite !cols_eq by (auto; lia). cbn [fst snd]. unfold size_of. destruct (N.eqb_spec (k + 1) m); [lia|].
    rewrite <- Nat.mul_add_distr_r, <- N2Nat.inj_add. do 2 f_equal. lia.
  - rewrite cols_eq by (auto; lia). cbn [fst snd]. unfold size_of. destruct (N.eqb_spec (m - 1 + 1) m); [|lia].
    rewrite <- Nat.mul_add_distr_r, <- N2Nat.inj_add. do 2 f_equal. nia.
Qed.
