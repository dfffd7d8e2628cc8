(** Proofs about odometry initialisation (C26). *)
From Coq Require Import List NArith ZArith Bool Arith Lia Reals Lra Psatz.
From Verif Require Import Base Num RSum Det ModelTypes ModelPoses ModelProblem ModelSolver SpecCost SpecSolver MatR
  ProofsPoseGraph ProofsSolver ProofsPoses.
Import ListNotations.
Local Open Scope R_scope.

Lemma u64_lt x : (x < two64)%N -> u64 x = x.
Proof. apply N.mod_small. Qed.

Lemma num_poses_fold (l : list (Meas R)) : forall s acc, (acc <= s + 1)%N -> (s + N.of_nat (length l) + 1 < two64)%N ->
  (forall k m, nth_error l k = Some m -> mp1 m = (s + N.of_nat k)%N /\ mp2 m = (s + N.of_nat k + 1)%N) -> l <> [] ->
  fold_left (fun n m => N.max (N.max n (u64 (mp1 m + 1))) (u64 (mp2 m + 1))) l acc = (s + N.of_nat (length l) + 1)%N.
Proof.
  induction l as [|m l IH]; intros s acc Ha Hb Hc N; [congruence|]. clear N. simpl fold_left.
  destruct (Hc O m eq_refl) as [E1 E2]. cbn [length] in *.
  assert (E1' : mp1 m = s) by lia. assert (E2' : mp2 m = (s + 1)%N) by lia. rewrite E1', E2'.
  rewrite !u64_lt by lia.
  destruct l as [|m' l].
  - simpl fold_left. simpl length. lia.
  - rewrite (IH (s + 1)%N); [lia|lia| |intros k m0 Hk; destruct (Hc (S k) m0 Hk); lia|discriminate].
    cbn [length] in *. lia.
Qed.

Lemma chain_dims d odo : chain d odo -> get_dimension_and_num_poses odo = Ok (d, (N.of_nat (length odo) + 1)%N).
Proof.
  intros (N & Hd & Hb & Hc). unfold get_dimension_and_num_poses. destruct odo as [|m0 l] eqn:E; [congruence|]. rewrite <- E in *.
  assert (H0 : nth_error odo 0 = Some m0) by (rewrite E; reflexivity). destruct (Hc O m0 H0) as (_ & _ & _ & _ & Mt & _).
  rewrite Mt. replace ((d =? 2)%nat || (d =? 3)%nat) with true by (destruct Hd; subst d; reflexivity). cbn [check].
  rewrite (num_poses_fold odo 0 0); [reflexivity|lia|lia| |auto].
  intros k m Hk. destruct (Hc k m Hk) as (A & B & _). lia.
Qed.

Lemma set_rot_entry d n T i B : traj d n T -> (i < n)%nat -> sized d d B ->
  exists T', pa_set_rot T i B = Ok T' /\ traj d n T' /\
    (forall x c, (x < d)%nat -> (c < d)%nat -> pblk T' i x c = B x c) /\
    (forall j x c, (c < d + 1)%nat -> (j <> i \/ c = d) -> pblk T' j x c = pblk T j x c).
Proof.
  intros (R1 & D1 & N1 & M1 & C1) Hi [B1 B2]. unfold pa_set_rot. rewrite N1, (proj2 (Nat.ltb_lt _ _) Hi). cbn [check].
  rewrite (proj2 (has_size_eq B _ _)) by (split; congruence). cbn [require]. eexists. split; [reflexivity|].
  split; [unfold traj; simpl; auto|]. unfold pblk. cbn [pa_X pa_d]. rewrite D1. split.
  - intros x c Hx Hc. apply sb_in; lia.
  - intros j x c Hc Hj. apply sb_out. rewrite B2. destruct (Nat.eq_dec j i) as [->|Nj]; [lia|].
    destruct (col_neq i j d ltac:(auto) c Hc); lia.
Qed.
Lemma set_trans_entry d n T i B : traj d n T -> (i < n)%nat -> sized d 1 B ->
  exists T', pa_set_trans T i B = Ok T' /\ traj d n T' /\
    (forall x, (x < d)%nat -> pblk T' i x d = B x O) /\
    (forall j x c, (c < d + 1)%nat -> (j <> i \/ c <> d) -> pblk T' j x c = pblk T j x c).
Proof.
  intros (R1 & D1 & N1 & M1 & C1) Hi [B1 B2]. unfold pa_set_trans. rewrite N1, (proj2 (Nat.ltb_lt _ _) Hi). cbn [check].
  rewrite (proj2 (has_size_eq B _ _)) by (split; congruence). cbn [require]. eexists. split; [reflexivity|].
  split; [unfold traj; simpl; auto|]. unfold pblk. cbn [pa_X pa_d]. rewrite D1. split.
  - intros x Hx. apply sb_in0; lia.
  - intros j x c Hc Hj. apply sb_out. rewrite B2. destruct (Nat.eq_dec j i) as [->|Nj]; [lia|].
    destruct (col_neq i j d ltac:(auto) c Hc); lia.
Qed.
Lemma set_pose_entry d n T i B : traj d n T -> (i < n)%nat -> sized d (d + 1) B ->
  exists T', pa_set_pose T i B = Ok T' /\ traj d n T' /\
    (forall x c, (x < d)%nat -> (c < d + 1)%nat -> pblk T' i x c = B x c) /\
    (forall j x c, (c < d + 1)%nat -> j <> i -> pblk T' j x c = pblk T j x c).
Proof.
  intros (R1 & D1 & N1 & M1 & C1) Hi [B1 B2]. unfold pa_set_pose. rewrite N1, (proj2 (Nat.ltb_lt _ _) Hi). cbn [check].
  rewrite (proj2 (has_size_eq B _ _)) by (split; congruence). cbn [require]. eexists. split; [reflexivity|].
  split; [unfold traj; simpl; auto|]. unfold pblk. cbn [pa_X pa_d]. rewrite D1. split.
  - intros x c Hx Hc. apply sb_in; lia.
  - intros j x c Hc Hj. apply sb_out. rewrite B2. destruct (col_neq i j d ltac:(auto) c Hc); lia.
Qed.

Lemma odom_step_spec d odo n T src m : chain d odo -> traj d n T -> nth_error odo src = Some m -> (S src < n)%nat ->
  exists T', odom_step odo T (S src) = Ok T' /\ traj d n T' /\ link d m (pblk T' src) (pblk T' (S src)) /\
    forall j x c, (c < d + 1)%nat -> j <> S src -> pblk T' j x c = pblk T j x c.
Proof.
  intros (Nn & Hd & Hb & Hc) HT Hm Hs. destruct (Hc src m Hm) as (P1 & P2 & Q1 & Q2 & Q3 & Q4).
  unfold odom_step. replace (S src - 1)%nat with src by lia. unfold vec_get. rewrite Hm. cbn [bind].
  rewrite P1, N.eqb_refl. rewrite P2. replace (src + 1)%nat with (S src) by lia. rewrite N.eqb_refl. cbn [check].
  pose proof HT as (R1 & D1 & N1 & M1 & C1). unfold pa_rot, pa_trans. rewrite N1, (proj2 (Nat.ltb_lt src n)) by lia. cbn [check bind].
  rewrite R1, D1.
  set (Rs := mblock (mblock _ _ _ _ _) 0 0 d d). set (ts := mblock (mblock _ _ _ _ _) 0 d d 1).
  assert (RQ : can_mul Rs (mR m) && can_mul Rs (mt m) && same_size ts (mmul Rs (mt m)) = true).
  { unfold can_mul, same_size. simpl. rewrite Q1, Q3, Q4, !Nat.eqb_refl. reflexivity. }
  rewrite RQ. cbn [require].
  destruct (set_rot_entry d n T (S src) (mmul Rs (mR m)) HT Hs) as (T1 & E1 & HT1 & V1 & F1); [split; simpl; auto|].
  rewrite E1. cbn [bind].
  destruct (set_trans_entry d n T1 (S src) (madd ts (mmul Rs (mt m))) HT1 Hs) as (T2 & E2 & HT2 & V2 & F2); [split; simpl; auto|].
  rewrite E2. exists T2. split; auto. split; auto.
  assert (RsE : forall a b, Rs a b = pblk T src a b).
  { intros a b. unfold Rs, pblk. cbn [mblock Num.mat]. rewrite D1, !Nat.add_0_l. reflexivity. }
  assert (tsE : forall a, ts a O = pblk T src a d).
  { intros a. unfold ts, pblk. cbn [mblock Num.mat]. rewrite D1, !Nat.add_0_l, Nat.add_0_r. reflexivity. }
  assert (Old : forall j x c, (c < d + 1)%nat -> j <> S src -> pblk T2 j x c = pblk T j x c).
  { intros j x c Hc' Hj. rewrite F2 by auto. apply F1; auto. }
  split; [|exact Old].
  intros a Ha. split.
  - intros c Hc'. rewrite F2 by lia. rewrite V1 by auto.
    change (rsum d (fun b => Rs a b * mR m b c) = rsum d (fun b => pblk T2 src a b * mR m b c)).
    apply rsum_ext. intros b Hb'. rewrite Old by lia. rewrite RsE. reflexivity.
  - rewrite V2 by auto. rewrite Old by lia.
    change (ts a O + rsum d (fun b => Rs a b * mt m b O) = pblk T src a d + rsum d (fun b => pblk T2 src a b * mt m b O)).
    rewrite tsE. f_equal. apply rsum_ext. intros b Hb'. rewrite Old by lia. rewrite RsE. reflexivity.
Qed.

Lemma link_ext d m A B A' B' : (forall a c, (c < d + 1)%nat -> A a c = A' a c) -> (forall a c, (c < d + 1)%nat -> B a c = B' a c) ->
  link d m A B -> link d m A' B'.
Proof.
  intros HA HB L a Ha. destruct (L a Ha) as [L1 L2]. split.
  - intros c Hc. rewrite <- HB by lia. rewrite L1 by auto. apply rsum_ext. intros b Hb. rewrite HA by lia. reflexivity.
  - rewrite <- HB, <- HA by lia. rewrite L2. f_equal. apply rsum_ext. intros b Hb. rewrite HA by lia. reflexivity.
Qed.

Lemma odom_loop d odo T0 s : chain d odo -> let n := S (length odo) in traj d n T0 -> (1 <= s)%nat -> (s <= n)%nat ->
  exists T, foldM (odom_step odo) T0 (seq s (n - s)) = Ok T /\ traj d n T /\
    (forall j x c, (c < d + 1)%nat -> (j < s)%nat -> pblk T j x c = pblk T0 j x c) /\
    (forall k m, (s <= S k)%nat -> nth_error odo k = Some m -> link d m (pblk T k) (pblk T (S k))).
Proof.
  intros Hc n H0 Hs Hn.
  assert (G : forall k, (k <= n - s)%nat -> exists T, foldM (odom_step odo) T0 (seq s k) = Ok T /\ traj d n T /\
    (forall j x c, (c < d + 1)%nat -> (j < s)%nat -> pblk T j x c = pblk T0 j x c) /\
    (forall l m, (s <= S l)%nat -> (S l < s + k)%nat -> nth_error odo l = Some m -> link d m (pblk T l) (pblk T (S l)))).
  { induction k as [|k IH]; intros Hk.
    - exists T0. split; [reflexivity|]. split; auto. split; auto. intros; lia.
    - destruct (IH ltac:(lia)) as (T & E & HT & O & L). rewrite seq_S, foldM_app, E. cbn [bind foldM].
      destruct (s + k)%nat as [|src] eqn:Es; [lia|].
      assert (Hsrc : (src < length odo)%nat) by (unfold n in *; lia).
      destruct (nth_error odo src) as [m|] eqn:Em; [|apply nth_error_None in Em; lia].
      destruct (odom_step_spec d odo n T src m Hc HT Em ltac:(unfold n; lia)) as (T' & E' & HT' & L' & O').
      rewrite E'. cbn [bind]. exists T'. split; [reflexivity|]. split; auto. split.
      + intros j x c Hc' Hj. rewrite O' by lia. apply O; auto.
      + intros l m' H1 H2 Hm'. destruct (Nat.eq_dec l src) as [->|Nl].
        * rewrite Em in Hm'. injection Hm' as <-. exact L'.
        * apply (link_ext d m' (pblk T l) (pblk T (S l))); [intros; symmetry; apply O'; lia|intros; symmetry; apply O'; lia|].
          apply L; auto; lia. }
  destruct (G (n - s)%nat (le_n _)) as (T & E & HT & O & L). exists T. split; auto. split; auto. split; auto.
  intros k m Hk Hm. apply L; auto. assert (k < length odo)%nat by (apply nth_error_Some; congruence). unfold n. lia.
Qed.

Lemma fresh_traj d n : exists T : PoseArr R, pa_new d d n = Ok T /\ traj d n T.
Proof. destruct (pa_new_spec (S := R) d d n (le_n d)) as (a & E & (A & B & C & D & F & _)). exists a. split; auto. repeat split; auto. Qed.

Theorem odometry_chain : forall d odo, chain d odo ->
  exists T, odometryInitialization odo None = Ok T /\ traj d (S (length odo)) T /\
    (forall a c, (a < d)%nat -> (c < d + 1)%nat -> pblk T 0 a c = idm a c) /\
    forall k m, nth_error odo k = Some m -> link d m (pblk T k) (pblk T (S k)).
Proof.
  intros d odo Hc. unfold odometryInitialization. rewrite (chain_dims d odo Hc). cbn [bind].
  replace (N.to_nat (N.of_nat (length odo) + 1)) with (S (length odo)) by lia. set (n := S (length odo)).
  destruct (fresh_traj d n) as (T0 & E0 & H0). rewrite E0. cbn [bind].
  destruct (pose_identity_spec d) as (I & EI & (I1 & I2 & I3 & I4 & I5) & VI). rewrite EI. cbn [bind].
  destruct (set_pose_entry d n T0 0 (pa_X I) H0 ltac:(unfold n; lia) (conj I4 I5)) as (T1 & E1 & H1 & V1 & _).
  rewrite E1. cbn [bind].
  destruct (odom_loop d odo T1 1 Hc H1 (le_n 1) ltac:(lia)) as (T & E & HT & O & L). fold n in E, HT. rewrite E.
  exists T. split; auto. split; auto. split.
  - intros a c Ha Hc'. rewrite O by lia. rewrite V1 by auto. apply VI; auto.
  - intros k m Hm. apply L; auto. lia.
Qed.

Theorem odometry_partial_start : forall d odo P, chain d odo -> traj d (pa_n P) P -> (0 < pa_n P)%nat ->
  let n := S (length odo) in let s := Nat.min (pa_n P) n in
  exists T, odometryInitialization odo (Some P) = Ok T /\ traj d n T /\
    (forall i a c, (i < s)%nat -> (a < d)%nat -> (c < d + 1)%nat -> pblk T i a c = pblk P i a c) /\
    forall k m, (s <= S k)%nat -> nth_error odo k = Some m -> link d m (pblk T k) (pblk T (S k)).
Proof.
  intros d odo P Hc HP Hn n s. unfold odometryInitialization. rewrite (chain_dims d odo Hc). cbn [bind].
  replace (N.to_nat (N.of_nat (length odo) + 1)) with n by (unfold n; lia).
  destruct (fresh_traj d n) as (T0 & E0 & H0). rewrite E0. cbn [bind].
  rewrite (proj2 (Nat.ltb_lt _ _) Hn). pose proof HP as (R1 & D1 & _ & M1 & C1). rewrite D1, Nat.eqb_refl. cbn [check].
  fold s.
  destruct (foldM_seq_inv (fun k T => traj d n T /\ forall i a c, (i < k)%nat -> (a < d)%nat -> (c < d + 1)%nat -> pblk T i a c = pblk P i a c)
    (fun T i => bind (pa_pose P i) (fun X => pa_set_pose T i X)) T0 s) with (k := s) as (T1 & E1 & H1 & V1); [| |lia|].
  { split; auto. intros; lia. }
  { intros k T Hk [HT V]. unfold pa_pose. rewrite (proj2 (Nat.ltb_lt k (pa_n P))) by lia. cbn [check bind].
    rewrite R1, D1.
    destruct (set_pose_entry d n T k (mblock (pa_X P) 0 (k * (d + 1)) d (d + 1)) HT ltac:(lia) (conj eq_refl eq_refl)) as (T' & E' & HT' & V' & O').
    exists T'. split; auto. split; auto. intros i a c Hi Ha Hc'. destruct (Nat.eq_dec i k) as [->|Ni].
    - rewrite V' by auto. unfold pblk. rewrite D1. reflexivity.
    - rewrite O' by auto. apply V; auto. lia. }
  rewrite E1. cbn [bind].
  destruct (odom_loop d odo T1 s Hc H1 ltac:(unfold s, n; lia) ltac:(cbv zeta; unfold s, n; lia)) as (T & E & HT & O & L). fold n in E, HT. rewrite E.
  exists T. split; auto. split; auto. split; auto.
  intros i a c Hi Ha Hc'. rewrite O by auto. apply V1; auto.
Qed.

(** Rotations stay rotations; relative poses. *)
Lemma link_rot d m A B : rotation d (mR m) -> rot_block d A -> link d m A B -> rot_block d B.
Proof.
  intros (_ & _ & OR & DR) [OA DA] L.
  assert (E : forall i j, (i < d)%nat -> (j < d)%nat -> B i j = mul d A (mR m) i j) by (intros i j Hi Hj; apply (L i Hi); auto).
  split.
  - apply (orth_ext d d (mul d A (mR m))); [intros; symmetry; auto|]. apply (orth_prod d d d); auto.
  - rewrite (det_ext d B _ E), det_mul, DA, DR. ring.
Qed.

Theorem link_relative : forall d m A B, orthonormal d d A -> link d m A B ->
  forall b, (b < d)%nat ->
    (forall c, (c < d)%nat -> rsum d (fun a => A a b * B a c) = mR m b c) /\
    rsum d (fun a => A a b * (B a d - A a d)) = mt m b O.
Proof.
  intros d m A B OA L b Hb.
  assert (G : forall v, rsum d (fun a => A a b * rsum d (fun k => A a k * v k)) = v b).
  { intros v. rewrite (rsum_ext d _ (fun a => rsum d (fun k => v k * (A a b * A a k)))).
    2:{ intros a _. rewrite <- rsum_scal. apply rsum_ext. intros; ring. }
    rewrite rsum_swap. rewrite (rsum_ext d _ (fun k => if Nat.eqb b k then v k else 0)).
    - apply (rsum_delta' d b v Hb).
    - intros k Hk. rewrite rsum_scal, (OA b k Hb Hk). destruct (Nat.eqb b k); ring. }
  split.
  - intros c Hc. rewrite <- (G (fun k => mR m k c)). apply rsum_ext. intros a Ha. rewrite (proj1 (L a Ha) c Hc). reflexivity.
  - rewrite <- (G (fun k => mt m k O)). apply rsum_ext. intros a Ha. rewrite (proj2 (L a Ha)). f_equal. ring.
Qed.

Lemma chain_rot d odo T : (forall m, In m odo -> rotation d (mR m)) -> rot_block d (pblk T 0) ->
  (forall k m, nth_error odo k = Some m -> link d m (pblk T k) (pblk T (S k))) ->
  forall k, (k <= length odo)%nat -> rot_block d (pblk T k).
Proof.
  intros HR H0 HL. induction k as [|k IH]; intros Hk; auto.
  destruct (nth_error odo k) as [m|] eqn:E; [|apply nth_error_None in E; lia].
  apply (link_rot d m (pblk T k)); auto.
  - apply HR. eapply nth_error_In; eauto.
  - apply IH. lia.
Qed.

Theorem odometry_exact : forall d odo, chain d odo -> (forall m, In m odo -> rotation d (mR m)) ->
  exists T, odometryInitialization odo None = Ok T /\ traj d (S (length odo)) T /\
    (forall a c, (a < d)%nat -> (c < d + 1)%nat -> pblk T 0 a c = idm a c) /\
    (forall k, (k <= length odo)%nat -> rot_block d (pblk T k)) /\
    forall k m, nth_error odo k = Some m -> forall b, (b < d)%nat ->
      (forall c, (c < d)%nat -> rsum d (fun a => pblk T k a b * pblk T (S k) a c) = mR m b c) /\
      rsum d (fun a => pblk T k a b * (pblk T (S k) a d - pblk T k a d)) = mt m b O.
Proof.
  intros d odo Hc HR. destruct (odometry_chain d odo Hc) as (T & E & HT & H0 & HL).
  exists T. split; auto. split; auto. split; auto.
  assert (R0 : rot_block d (pblk T 0)).
  { split; [apply (orth_ext d d idm); [intros; symmetry; apply H0; lia|apply orth_idm]|].
    rewrite <- (det_idm d). apply det_ext. intros i j Hi Hj. apply H0; lia. }
  assert (Rk := chain_rot d odo T HR R0 HL). split; auto.
  intros k m Hm. apply link_relative; auto. apply Rk.
  assert (k < length odo)%nat by (apply nth_error_Some; congruence). lia.
Qed.

(** The trajectory is the only one with these links and this start. *)
Theorem odometry_unique : forall d odo T T', (forall a c, (a < d)%nat -> (c < d + 1)%nat -> pblk T 0 a c = pblk T' 0 a c) ->
  (forall k m, nth_error odo k = Some m -> link d m (pblk T k) (pblk T (S k)) /\ link d m (pblk T' k) (pblk T' (S k))) ->
  forall k a c, (k <= length odo)%nat -> (a < d)%nat -> (c < d + 1)%nat -> pblk T k a c = pblk T' k a c.
Proof.
  intros d odo T T' H0 HL. induction k as [|k IH]; intros a c Hk Ha Hc; auto.
  destruct (nth_error odo k) as [m|] eqn:E; [|apply nth_error_None in E; lia].
  destruct (HL k m E) as [L L']. destruct (L a Ha) as [L1 L2], (L' a Ha) as [L1' L2'].
  destruct (Nat.eq_dec c d) as [->|Nc].
  - rewrite L2, L2'. rewrite IH by lia. f_equal. apply rsum_ext. intros b Hb. rewrite IH by lia. reflexivity.
  - rewrite L1, L1' by lia. apply rsum_ext. intros b Hb. rewrite IH by lia. reflexivity.
Qed.

(** ** Examples and the out-of-range read *)
Definition oxm (p1 p2 : N) : Meas R := mkMeas 0 0 p1 p2 (mlit 2 2 [[0; -1]; [1; 0]]) (mlit 2 1 [[1]; [2]]) 1 1 false 1.
Lemma oxm_rot p1 p2 : rotation 2 (mR (oxm p1 p2)).
Proof.
  split; [reflexivity|]. split; [reflexivity|]. split.
  - intros b c Hb Hc. destruct b as [|[|b]]; destruct c as [|[|c]]; try lia; simpl; lra.
  - cbv [det sgn minor skip nsum oxm mR]. simpl. ring.
Qed.
Lemma ox_chain : chain 2 [oxm 0 1; oxm 1 2; oxm 2 3] /\ (forall m, In m [oxm 0 1; oxm 1 2; oxm 2 3] -> rotation 2 (mR m)).
Proof.
  split.
  - split; [discriminate|]. split; [auto|]. split; [reflexivity|].
    intros [|[|[|k]]] m E; simpl in E; try (injection E as <-; repeat split); destruct k; discriminate.
  - intros m [<-|[<-|[<-|[]]]]; apply oxm_rot.
Qed.

Theorem odometry_overread : exists P : PoseArr R, pa_new 2 2 6 = Ok P /\ odometryInitialization [oxm 5 6] (Some P) = UB.
Proof.
  destruct (fresh_traj 2 6) as (P & EP & HP). exists P. split; auto.
  unfold odometryInitialization.
  assert (E : get_dimension_and_num_poses [oxm 5 6] = Ok (2%nat, 7%N)) by reflexivity. rewrite E. cbn [bind].
  change (N.to_nat 7) with 7%nat. destruct (fresh_traj 2 7) as (T0 & E0 & H0). rewrite E0. cbn [bind].
  pose proof HP as (R1 & D1 & N1 & _). rewrite N1, D1. change ((0 <? 6)%nat) with true. change ((2 =? 2)%nat) with true. cbn [check].
  change (Nat.min 6 7) with 6%nat.
  destruct (foldM_seq_inv (fun k T => traj 2 7 T)
    (fun T i => bind (pa_pose P i) (fun X => pa_set_pose T i X)) T0 6) with (k := 6%nat) as (T1 & E1 & H1); [auto| |lia|].
  { intros k T Hk HT. unfold pa_pose. rewrite N1, (proj2 (Nat.ltb_lt k 6)) by lia. cbn [check bind]. rewrite R1, D1.
    destruct (set_pose_entry 2 7 T k (mblock (pa_X P) 0 (k * (2 + 1)) 2 (2 + 1)) HT ltac:(lia) (conj eq_refl eq_refl)) as (T' & E' & HT' & _).
    exists T'. auto. }
  rewrite E1. cbn [bind]. reflexivity.
Qed.
