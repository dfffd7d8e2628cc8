(** The matrices of constructBMatrices encode the chordal cost. *)
From Coq Require Import List NArith ZArith Arith Bool Lia Reals Lra.
From Verif Require Import Base Num RSum ModelTypes ModelPoseGraph ModelChordal SpecPoseGraph SpecCost ProofsPoseGraph ProofsCost.
Import ListNotations.
Local Open Scope R_scope.
Implicit Types (m : Meas R) (ms : list (Meas R)) (g : PoseGraph R).

Lemma mul_add_inj w e e' c c' : (c < w)%nat -> (c' < w)%nat -> (e * w + c = e' * w + c')%nat -> e = e' /\ c = c'.
Proof.
  intros Hc Hc' E. rewrite (Nat.mul_comm e), (Nat.mul_comm e') in E.
  destruct (Nat.div_mod_unique w e e' c c' Hc Hc' E). auto.
Qed.

Definition m00 : Meas R := mkMeas 0 0 0 0 (mident 0) (mident 0) 0 0 false 0.

Definition tpick (row : nat) (v : nat -> R) (t : trip R) : R :=
  match t with (i, j, x) => if Nat.eqb i row then v j * x else 0 end.

Lemma Bv w k cols (ent : nat -> Meas R -> list (trip R)) ms v e0 q :
  in_range (w * k) cols (enum 0 ent ms) = true -> k = length ms ->
  (forall e m i j x, In (i, j, x) (ent e m) -> exists off, (off < w)%nat /\ i = (e * w + off)%nat) ->
  (e0 < k)%nat -> (q < w)%nat ->
  rsum cols (fun j => spcoef (enum 0 ent ms) (e0 * w + q) j * v j) =
  nsumL (tpick (e0 * w + q) v) (ent e0 (nth e0 ms m00)).
Proof.
  intros HR Hk HE He Hq. set (row := (e0 * w + q)%nat).
  assert (Hrow : (row < w * k)%nat) by (unfold row; nia).
  pose proof (spcoef_sum _ _ _ (fun i j => if Nat.eqb i row then v j else 0) HR) as SS.
  rewrite (rsum_single _ row) in SS; auto.
  2:{ intros i _ N. apply rsum_zero'. intros j _. destruct (Nat.eqb_spec i row); [lia|lra]. }
  rewrite Nat.eqb_refl in SS.
  rewrite (rsum_ext cols _ (fun j => v j * spcoef (enum 0 ent ms) row j)) by (intros; ring).
  etransitivity; [exact SS|].
  unfold trip in *. rewrite (enum_sum _ _ _ m00), <- Hk.
  rewrite (rsum_single _ e0); auto.
  - cbn [plus]. apply rsumL_ext. intros [[i j] x] _. unfold tpick. destruct (Nat.eqb i row); lra.
  - intros e Hlt Ne. cbn [plus]. apply rsumL_zero. intros [[i j] x] Hin. destruct (HE _ _ _ _ _ Hin) as (off & Ho & ->).
    destruct (Nat.eqb_spec (e * w + off) row) as [E|]; [|lra].
    exfalso. unfold row in E. apply mul_add_inj in E; auto. lia.
Qed.

Lemma b1_rows d e m i j x : In (i, j, x) (b1_entries d e m) -> exists off, (off < d)%nat /\ i = (e * d + off)%nat.
Proof.
  unfold b1_entries. intros H. apply in_flat_map in H. destruct H as (l & Hl & H). apply in_seq in Hl.
  exists l. split; [lia|]. destruct H as [H|[H|[]]]; inversion H; auto.
Qed.

Lemma b2_rows d e m i j x : In (i, j, x) (b2_entries d e m) -> exists off, (off < d)%nat /\ i = (e * d + off)%nat.
Proof.
  unfold b2_entries. intros H. apply in_flat_map in H. destruct H as (k & Hk & H). apply in_map_iff in H.
  destruct H as (l & H & Hl). apply in_seq in Hl. inversion H. exists l. split; [lia|]. lia.
Qed.

Lemma b3_rows d e m i j x : In (i, j, x) (b3_entries d e m) -> exists off, (off < d * d)%nat /\ i = (e * (d * d) + off)%nat.
Proof.
  unfold b3_entries. intros H. apply in_app_iff in H. destruct H as [H|H].
  - apply in_flat_map in H. destruct H as (r & Hr & H). apply in_flat_map in H. destruct H as (c & Hc & H).
    apply in_map_iff in H. destruct H as (l & H & Hl). apply in_seq in Hl, Hr, Hc. inversion H.
    exists (d * r + l)%nat. split; [nia|lia].
  - apply in_map_iff in H. destruct H as (l & H & Hl). apply in_seq in Hl. inversion H. exists l. split; [lia|auto].
Qed.

Lemma b1_val d e m v l : (l < d)%nat ->
  nsumL (tpick (e * d + l) v) (b1_entries d e m) =
  sqrt (mtau m) * (v (N.to_nat (mp2 m) * d + l)%nat - v (N.to_nat (mp1 m) * d + l)%nat).
Proof.
  intros Hl. unfold b1_entries, trip. rewrite rsumL_flat_map, rsumL_seq0.
  rewrite (rsum_single _ l); auto.
  - rewrite !rsumL_cons, rsumL_nil. unfold tpick. rewrite Nat.eqb_refl. numr. ring.
  - intros i Hi N. rewrite !rsumL_cons, rsumL_nil. unfold tpick. destruct (Nat.eqb_spec (e * d + i) (e * d + l)); [lia|lra].
Qed.

Lemma b2_val d e m v l : (l < d)%nat ->
  nsumL (tpick (e * d + l) v) (b2_entries d e m) =
  - sqrt (mtau m) * rsum d (fun k => v (d * d * N.to_nat (mp1 m) + d * k + l)%nat * mt m k 0%nat).
Proof.
  intros Hl. unfold b2_entries, trip. rewrite rsumL_flat_map, rsumL_seq0, <- rsum_scal. apply rsum_ext. intros k Hk.
  rewrite rsumL_map, rsumL_seq0, (rsum_single _ l); auto.
  - unfold tpick. rewrite (Nat.mul_comm d e), Nat.eqb_refl. numr. ring.
  - intros i Hi N. unfold tpick. destruct (Nat.eqb_spec (d * e + i) (e * d + l)); [lia|lra].
Qed.

Lemma b3_val d e m v r l : (r < d)%nat -> (l < d)%nat ->
  nsumL (tpick (e * (d * d) + (r * d + l)) v) (b3_entries d e m) =
  sqrt (mkappa m) * (v (N.to_nat (mp2 m) * (d * d) + (r * d + l))%nat -
     rsum d (fun c => v (N.to_nat (mp1 m) * (d * d) + d * c + l)%nat * mR m c r)).
Proof.
  intros Hr Hl. unfold b3_entries, trip. rewrite rsumL_app, rsumL_flat_map, rsumL_map, !rsumL_seq0.
  set (row := (e * (d * d) + (r * d + l))%nat).
  rewrite (rsum_single _ r); auto.
  - rewrite rsumL_flat_map, rsumL_seq0.
    rewrite (rsum_ext d _ (fun c => - sqrt (mkappa m) * (v (N.to_nat (mp1 m) * (d * d) + d * c + l)%nat * mR m c r))).
    2:{ intros c Hc. rewrite rsumL_map, rsumL_seq0, (rsum_single _ l); auto.
        - unfold tpick, row. destruct (Nat.eqb_spec (e * (d * d) + d * r + l) (e * (d * d) + (r * d + l))); [numr; ring|lia].
        - intros i Hi N. unfold tpick, row. destruct (Nat.eqb_spec (e * (d * d) + d * r + i) (e * (d * d) + (r * d + l))); [lia|lra]. }
    rewrite rsum_scal. rewrite (rsum_single (d * d) (r * d + l)); [|nia|].
    + unfold tpick, row. rewrite Nat.eqb_refl. numr. ring.
    + intros i Hi N. unfold tpick, row. destruct (Nat.eqb_spec (e * (d * d) + i) (e * (d * d) + (r * d + l))); [lia|lra].
  - intros i Hi N. rewrite rsumL_flat_map. apply rsumL_zero. intros c _. rewrite rsumL_map. apply rsumL_zero. intros k Hk.
    apply in_seq in Hk. unfold tpick, row. destruct (Nat.eqb_spec (e * (d * d) + d * i + k) (e * (d * d) + (r * d + l))) as [E|]; [|lra].
    exfalso. assert (E2 : (i * d + k = r * d + l)%nat) by lia. apply mul_add_inj in E2; lia.
Qed.

Lemma from_triplets_Ok rows cols (ts : list (trip R)) B : from_triplets rows cols ts = Ok B ->
  in_range rows cols ts = true /\ mrows B = rows /\ mcols B = cols /\ forall i j, B i j = spcoef ts i j.
Proof. unfold from_triplets. intros E. apply require_Ok in E. destruct E as [H E]. inversion E. auto. Qed.


Theorem chordal_B3 ms B1 B2 B3 v : constructBMatrices ms = Ok (B1, B2, B3) ->
  (forall m, In m ms -> 0 <= mkappa m) ->
  let d := edges_dim ms in
  rsum (mrows B3) (fun i => sq (mulv B3 v i)) =
  nsumL (fun m => mkappa m * rsum d (fun r => rsum d (fun l =>
     sq (v (N.to_nat (mp2 m) * (d * d) + r * d + l)%nat -
         rsum d (fun c => v (N.to_nat (mp1 m) * (d * d) + c * d + l)%nat * mR m c r))))) ms.
Proof.
  intros E HK. cbn zeta. set (d := edges_dim ms). unfold constructBMatrices in E. fold d in E.
  apply require_Ok in E. destruct E as [_ E].
  apply bind_Ok in E. destruct E as (C1 & E1 & E). apply bind_Ok in E. destruct E as (C2 & E2 & E).
  apply bind_Ok in E. destruct E as (C3 & E3 & E). inversion E; subst C1 C2 C3. clear E E1 E2.
  destruct (from_triplets_Ok _ _ _ _ E3) as (HR & R3 & CC & V3).
  rewrite R3, (rsumL_nth _ ms m00), Nat.mul_comm, rsum_mult. apply rsum_ext. intros e He.
  set (m := nth e ms m00). assert (Hm : In m ms) by (apply nth_In; auto).
  rewrite rsum_mult, <- rsum_scal. apply rsum_ext. intros r Hr. rewrite <- rsum_scal. apply rsum_ext. intros l Hl.
  unfold mulv. rewrite CC.
  rewrite (rsum_ext _ _ (fun j => spcoef (enum 0 (b3_entries d) ms) (e * (d * d) + (r * d + l)) j * v j)).
  2:{ intros j _. rewrite V3. reflexivity. }
  rewrite (Bv (d * d) (length ms)); auto; [|intros ? ? ? ? ? HI; exact (b3_rows _ _ _ _ _ _ HI)|nia].
  rewrite b3_val by auto. fold m. unfold sq.
  rewrite (rsum_ext d (fun c => v (N.to_nat (mp1 m) * (d * d) + c * d + l)%nat * mR m c r)
    (fun c => v (N.to_nat (mp1 m) * (d * d) + d * c + l)%nat * mR m c r)).
  2:{ intros c Hc. do 2 f_equal. lia. }
  replace (N.to_nat (mp2 m) * (d * d) + (r * d + l))%nat with (N.to_nat (mp2 m) * (d * d) + r * d + l)%nat by lia.
  set (u := _ - _). replace (sqrt (mkappa m) * u * (sqrt (mkappa m) * u)) with ((sqrt (mkappa m) * sqrt (mkappa m)) * (u * u)) by ring.
  rewrite sqrt_sqrt; auto.
Qed.

Theorem chordal_B12 ms B1 B2 B3 t v : constructBMatrices ms = Ok (B1, B2, B3) ->
  (forall m, In m ms -> 0 <= mtau m) ->
  let d := edges_dim ms in
  mrows B2 = mrows B1 /\
  rsum (mrows B1) (fun i => sq (mulv B1 t i + mulv B2 v i)) =
  nsumL (fun m => mtau m * rsum d (fun l =>
     sq (t (N.to_nat (mp2 m) * d + l)%nat - t (N.to_nat (mp1 m) * d + l)%nat -
         rsum d (fun c => v (N.to_nat (mp1 m) * (d * d) + c * d + l)%nat * mt m c 0%nat)))) ms.
Proof.
  intros E HK. cbn zeta. set (d := edges_dim ms). unfold constructBMatrices in E. fold d in E.
  apply require_Ok in E. destruct E as [_ E].
  apply bind_Ok in E. destruct E as (C1 & E1 & E). apply bind_Ok in E. destruct E as (C2 & E2 & E).
  apply bind_Ok in E. destruct E as (C3 & E3 & E). inversion E; subst C1 C2 C3. clear E E3.
  destruct (from_triplets_Ok _ _ _ _ E1) as (HR1 & R1 & CC1 & V1).
  destruct (from_triplets_Ok _ _ _ _ E2) as (HR2 & R2 & CC2 & V2).
  split; [congruence|].
  rewrite R1, (rsumL_nth _ ms m00), Nat.mul_comm, rsum_mult. apply rsum_ext. intros e He.
  set (m := nth e ms m00). assert (Hm : In m ms) by (apply nth_In; auto).
  rewrite <- rsum_scal. apply rsum_ext. intros l Hl.
  unfold mulv. rewrite CC1, CC2.
  rewrite (rsum_ext (d * _) _ (fun j => spcoef (enum 0 (b1_entries d) ms) (e * d + l) j * t j)).
  2:{ intros j _. rewrite V1. reflexivity. }
  rewrite (rsum_ext (d * d * _) _ (fun j => spcoef (enum 0 (b2_entries d) ms) (e * d + l) j * v j)).
  2:{ intros j _. rewrite V2. reflexivity. }
  rewrite (Bv d (length ms)); auto; [|intros ? ? ? ? ? HI; exact (b1_rows _ _ _ _ _ _ HI)].
  rewrite (Bv d (length ms)); auto; [|intros ? ? ? ? ? HI; exact (b2_rows _ _ _ _ _ _ HI)].
  rewrite b1_val, b2_val by auto. fold m. unfold sq.
  rewrite (rsum_ext d (fun c => v (N.to_nat (mp1 m) * (d * d) + c * d + l)%nat * mt m c 0%nat)
    (fun c => v (d * d * N.to_nat (mp1 m) + d * c + l)%nat * mt m c 0%nat)).
  2:{ intros c Hc. do 2 f_equal. lia. }
  set (u := rsum d _). set (a := t _). set (b := t _).
  transitivity ((sqrt (mtau m) * sqrt (mtau m)) * ((a - b - u) * (a - b - u))); [ring|].
  rewrite sqrt_sqrt; auto.
Qed.

(** The matrices always exist when the measurements have one dimension. *)
Lemma b_num_le ms : forall m, In m ms -> (mp1 m < b_num_poses ms)%N /\ (mp2 m < b_num_poses ms)%N.
Proof.
  unfold b_num_poses.
  set (step := fun n (m : Meas R) => let mp := N.max (mp1 m) (mp2 m) in if (n <? mp)%N then mp else n).
  assert (A : forall l n, (n <= fold_left step l n)%N).
  { induction l; intros n; cbn [fold_left]; [lia|]. eapply N.le_trans; [|apply IHl].
    unfold step. cbn zeta. destruct (N.ltb_spec n (N.max (mp1 a) (mp2 a))); lia. }
  assert (B : forall l n m, In m l -> (N.max (mp1 m) (mp2 m) <= fold_left step l n)%N).
  { induction l; intros n m []; cbn [fold_left].
    - subst. eapply N.le_trans; [|apply A]. unfold step. cbn zeta. destruct (N.ltb_spec n (N.max (mp1 m) (mp2 m))); lia.
    - apply IHl; auto. }
  intros m Hm. pose proof (B ms 0%N m Hm). lia.
Qed.

Lemma enum_In {A B} (f : nat -> A -> list B) l : forall s b, In b (enum s f l) ->
  exists e a, (e < length l)%nat /\ In a l /\ In b (f (s + e)%nat a).
Proof.
  induction l as [|a l IH]; intros s b H; [destruct H|]. cbn [enum] in H. apply in_app_iff in H. destruct H as [H|H].
  - exists 0%nat, a. rewrite Nat.add_0_r. simpl. split; [lia|auto].
  - apply IH in H. destruct H as (e & x & He & Hx & H). exists (S e), x. simpl. rewrite <- plus_n_Sm. split; [lia|auto].
Qed.

Lemma b_defined ms : forallb (meas_has_dim (edges_dim ms)) ms = true -> exists B1 B2 B3,
  constructBMatrices ms = Ok (B1, B2, B3).
Proof.
  intros HD. unfold constructBMatrices. set (d := edges_dim ms) in *. rewrite HD. unfold require at 1.
  set (n := N.to_nat (b_num_poses ms)).
  assert (HN : forall m, In m ms -> (N.to_nat (mp1 m) < n)%nat /\ (N.to_nat (mp2 m) < n)%nat).
  { intros m Hm. destruct (b_num_le ms m Hm). unfold n. lia. }
  assert (R1 : in_range (d * length ms) (d * n) (enum 0 (b1_entries d) ms) = true).
  { apply forallb_forall. intros [[i j] x] H. apply enum_In in H. destruct H as (e & m & He & Hm & H).
    destruct (HN m Hm). unfold b1_entries in H. apply in_flat_map in H. destruct H as (l & Hl & H). apply in_seq in Hl.
    apply andb_true_intro. destruct H as [H|[H|[]]]; inversion H; split; apply Nat.ltb_lt; nia. }
  assert (R2 : in_range (d * length ms) (d * d * n) (enum 0 (b2_entries d) ms) = true).
  { apply forallb_forall. intros [[i j] x] H. apply enum_In in H. destruct H as (e & m & He & Hm & H).
    destruct (HN m Hm). unfold b2_entries in H. apply in_flat_map in H. destruct H as (k & Hk & H). apply in_map_iff in H.
    destruct H as (l & H & Hl). apply in_seq in Hl, Hk. apply andb_true_intro. inversion H; split; apply Nat.ltb_lt; [nia|].
    assert (d * k + l < d * d)%nat by nia. assert (d * d * (N.to_nat (mp1 m) + 1) <= d * d * n)%nat by nia. lia. }
  assert (R3 : in_range (d * d * length ms) (d * d * n) (enum 0 (b3_entries d) ms) = true).
  { apply forallb_forall. intros [[i j] x] H. apply enum_In in H. destruct H as (e & m & He & Hm & H).
    destruct (HN m Hm). unfold b3_entries in H. apply andb_true_intro. apply in_app_iff in H. destruct H as [H|H].
    - apply in_flat_map in H. destruct H as (r & Hr & H). apply in_flat_map in H. destruct H as (c & Hc & H).
      apply in_map_iff in H. destruct H as (l & H & Hl). apply in_seq in Hl, Hr, Hc. inversion H. split; apply Nat.ltb_lt.
      + assert (d * r + l < d * d)%nat by nia. assert (d * d * (e + 1) <= d * d * length ms)%nat by nia. lia.
      + assert (d * c + l < d * d)%nat by nia. assert (d * d * (N.to_nat (mp1 m) + 1) <= d * d * n)%nat by nia. lia.
    - apply in_map_iff in H. destruct H as (l & H & Hl). apply in_seq in Hl. inversion H. split; apply Nat.ltb_lt.
      + assert (d * d * (e + 1) <= d * d * length ms)%nat by nia. lia.
      + assert (d * d * (N.to_nat (mp2 m) + 1) <= d * d * n)%nat by nia. lia. }
  unfold from_triplets. rewrite R1, R2, R3. cbn. eauto.
Qed.
