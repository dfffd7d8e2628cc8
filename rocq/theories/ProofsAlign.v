(** Joining a neighbour's frame by robust averaging (C60). *)
From Coq Require Import List NArith ZArith Bool Arith Lia Reals Lra Sorted.
From Verif Require Import Base SMap Num RSum Det ModelTypes ModelPoseGraph ModelProblem ModelRobust ModelPoses ModelSolver ModelAgent ModelAlign
  SpecPoseGraph SpecCost SpecSolver SpecAgent SpecFrames SpecAlign MatR ProofsPoseGraph ProofsSolver ProofsGnc ProofsGnc2 ProofsPoses ProofsOdom
  ProofsFrames ProofsFrames2 ProofsAgent ProofsAgent2 ProofsAgent3 ProofsAgent4 ProofsInit ProofsAngle.
Import ListNotations.
Local Open Scope res_scope.
Local Open Scope R_scope.

Lemma joined_beq id d m Tn Ti W W' : beq d W W' -> joined id d m Tn Ti W -> joined id d m Tn Ti W'.
Proof.
  intros B J. assert (BC : beq d (comp d W Ti) (comp d W' Ti)).
  { intros i j Hi Hj. unfold comp. f_equal; [apply rsum_ext; intros; rewrite B by lia; reflexivity|]. destruct (j =? d)%nat; [apply B; lia|reflexivity]. }
  unfold joined in *. destruct (mr2 m =? id)%N; intros a Ha; destruct (J a Ha) as [J1 J2]; split.
  - intros c Hc. rewrite <- BC by lia. auto.
  - rewrite <- BC by lia. auto.
  - intros c Hc. rewrite J1 by auto. apply rsum_ext. intros b Hb. rewrite BC by lia. reflexivity.
  - rewrite J2. rewrite BC by lia. f_equal. apply rsum_ext. intros b Hb. rewrite BC by lia. reflexivity.
Qed.

Section Cand.
Context (x : Ext R) (id : N) (p : AgentParams R) (os : list (aop R)) (a : Agent R) (k : N) (dict : list (PoseID * Mx R)).
Context (Tn : PoseID -> nat -> nat -> R) (T : PoseArr R) (YL : Mx R).
Context (Ra : areach x id p os a) (HT : a_TLocal a = Some T) (HY : a_YLift a = Some YL).
Let d := p_d p.
Context (Hh : hears (x_minv x) id k (p_r p) d (pg_shared (a_pg a)) YL T Tn dict).

Lemma shared_kind m : In m (pg_shared (a_pg a)) ->
  ((mr1 m =? k)%N || (mr2 m =? k)%N = (other_robot id m =? k)%N) /\
  (other_robot id m = k -> mkPoseID k (if (mr1 m =? k)%N then u32 (mp1 m) else u32 (mp2 m)) = other_pose id m).
Proof.
  intros Hin. destruct Hh as (Nk & _). pose proof (areach_inv _ _ _ _ _ Ra) as I. destruct (hist_all _ _ _ _ _ Ra) as (Hid & _).
  destruct (shared_facts a m I Hin) as ((I1 & I2 & I3 & I4) & Sh & _). rewrite Hid in Sh. unfold is_shared in Sh.
  assert (U : forall v, (v < 4294967295)%N -> u32 v = v). { intros v Hv. unfold u32, two32. apply N.mod_small. lia. }
  unfold other_robot, other_pose. rewrite !U by auto.
  destruct (N.eqb_spec (mr1 m) id) as [E1|E1], (N.eqb_spec (mr2 m) id) as [E2|E2]; cbn in Sh; try discriminate;
    (destruct (N.eqb_spec (mr1 m) k) as [K1|K1], (N.eqb_spec (mr2 m) k) as [K2|K2]); cbn; split; intros; try reflexivity; try congruence; try (exfalso; congruence).
Qed.

(** The candidate of one measurement. *)
Lemma one_candidate m v : In m (pg_shared (a_pg a)) -> other_robot id m = k -> mfind pose_ltb (other_pose id m) dict = Some v ->
  exists W, ag_computeNeighborTransform x a m v = Ok W /\ rigid d W /\
    joined id d m (Tn (other_pose id m)) (pblk T (N.to_nat (frame_id (own_pose id m)))) (pa_X W) /\
    forall W', joined id d m (Tn (other_pose id m)) (pblk T (N.to_nat (frame_id (own_pose id m)))) W' -> beq d W' (pa_X W).
Proof.
  intros Hin Hr Hf. destruct Hh as (_ & OY & Hm & Hs & Hrot).
  assert (He : In m (evidence id k dict (pg_shared (a_pg a)))).
  { apply filter_In. split; auto. rewrite Hf, Hr, N.eqb_refl. reflexivity. }
  destruct (Hrot m He) as [R1 R2].
  assert (Q : robot_id (other_pose id m) = k). { rewrite <- Hr. unfold other_pose, other_robot. destruct (mr1 m =? id)%N; reflexivity. }
  destruct (Hs _ _ Q Hf) as (R3 & S3 & E3).
  exact (c29_transform x id p os a m v (Tn (other_pose id m)) T YL Ra Hin HT HY OY Hm R1 R2 R3 S3 E3).
Qed.

Definition cand_step := (fun acc (m : Meas R) =>
    let nid := mkPoseID k (if (mr1 m =? k)%N then u32 (mp1 m) else u32 (mp2 m)) in
    match mfind pose_ltb nid dict with
    | None => Ok acc
    | Some v =>
        do T <- ag_computeNeighborTransform x a m v;
        do R <- pa_rot T 0; do t <- pa_trans T 0;
        Ok (fst acc ++ [R], snd acc ++ [t])
    end).

Lemma rigid_parts (W : PoseArr R) : rigid d W ->
  pa_rot W 0 = Ok (mblock (mblock (pa_X W) 0 0 d (d + 1)) 0 0 d d) /\ pa_trans W 0 = Ok (mblock (mblock (pa_X W) 0 0 d (d + 1)) 0 d d 1).
Proof. intros (A1 & A2 & A3 & _). unfold pa_rot, pa_trans. rewrite A1, A2, A3. split; reflexivity. Qed.

Lemma cand_loop L : forall accR accT, incl L (pg_shared (a_pg a)) ->
  exists Rs ts Ws, foldM cand_step (accR, accT) (filter (fun m => (mr1 m =? k)%N || (mr2 m =? k)%N) L) = Ok (accR ++ Rs, accT ++ ts) /\
    candidates id d Tn T (evidence id k dict L) Ws /\ Forall (fun W => rot_block d (Num.mat W)) Ws /\
    Forall2 (same_part d 0 d) Rs Ws /\ Forall2 (same_part d d 1) ts Ws /\
    (forall Ws', candidates id d Tn T (evidence id k dict L) Ws' -> Forall2 (fun W' W => beq d (Num.mat W') (Num.mat W)) Ws' Ws).
Proof.
  induction L as [|m L IH]; intros accR accT HL.
  - exists [], [], []. cbn. rewrite !app_nil_r. split; [reflexivity|]. split; [constructor|]. split; [constructor|]. split; [constructor|]. split; [constructor|].
    intros Ws' H. inversion H. constructor.
  - assert (Hin : In m (pg_shared (a_pg a))) by (apply HL; left; reflexivity).
    assert (HL' : incl L (pg_shared (a_pg a))) by (intros q Hq; apply HL; right; auto).
    destruct (shared_kind m Hin) as [K1 K2]. cbn [filter]. unfold evidence. cbn [filter]. fold (evidence id k dict L). rewrite K1.
    destruct (N.eqb_spec (other_robot id m) k) as [Hr|Hr]; [|cbn [andb]; apply IH; auto].
    cbn [foldM andb]. unfold cand_step at 1. rewrite (K2 Hr).
    destruct (mfind pose_ltb (other_pose id m) dict) as [v|] eqn:Hf; [|cbn [bind]; apply IH; auto].
    destruct (one_candidate m v Hin Hr Hf) as (W & EW & RW & JW & UW). rewrite EW. cbn [bind].
    destruct (rigid_parts W RW) as [-> ->]. cbn [bind fst snd].
    set (Rm := mblock _ 0 0 d d). set (tm := mblock _ 0 d d 1).
    destruct (IH (accR ++ [Rm]) (accT ++ [tm]) HL') as (Rs & ts & Ws & E & HC & HR & H1 & H2 & HU).
    exists (Rm :: Rs), (tm :: ts), (pa_X W :: Ws). rewrite E. split; [rewrite <- !app_assoc; reflexivity|].
    split; [constructor; auto|]. split; [constructor; auto; destruct RW as (_ & _ & _ & _ & _ & A & B); split; auto|].
    split; [constructor; auto; split; [split; reflexivity|]; intros i j Hi Hj; reflexivity|].
    split; [constructor; auto; split; [split; reflexivity|]; intros i j Hi Hj; reflexivity|].
    intros Ws' H. inversion H; subst. constructor; [apply UW; auto|]. apply HU; auto.
Qed.

Lemma candidates_run : exists Rs ts Ws, ag_candidates x a k dict = Ok (Rs, ts) /\
    candidates id d Tn T (evidence id k dict (pg_shared (a_pg a))) Ws /\ Forall (fun W => rot_block d (Num.mat W)) Ws /\
    Forall2 (same_part d 0 d) Rs Ws /\ Forall2 (same_part d d 1) ts Ws /\
    (forall Ws', candidates id d Tn T (evidence id k dict (pg_shared (a_pg a))) Ws' -> Forall2 (fun W' W => beq d (Num.mat W') (Num.mat W)) Ws' Ws).
Proof.
  destruct (cand_loop (pg_shared (a_pg a)) [] [] (incl_refl _)) as (Rs & ts & Ws & E & H).
  exists Rs, ts, Ws. split; [exact E|exact H].
Qed.

Lemma candidates_given Ws : candidates id d Tn T (evidence id k dict (pg_shared (a_pg a))) Ws ->
  exists Rs ts, ag_candidates x a k dict = Ok (Rs, ts) /\ Forall (fun W => rot_block d (Num.mat W)) Ws /\
    Forall2 (same_part d 0 d) Rs Ws /\ Forall2 (same_part d d 1) ts Ws.
Proof.
  intros HC. destruct candidates_run as (Rs & ts & Ws0 & E & _ & HR & H1 & H2 & HU). specialize (HU Ws HC).
  exists Rs, ts. split; [exact E|]. clear E HC. revert Rs ts H1 H2 HR. induction HU as [|W W0 Ws Ws0 B HU IH]; intros Rs ts H1 H2 HR.
  - inversion H1; inversion H2; subst. split; [constructor|]. split; constructor.
  - inversion H1 as [|R0 ? Rs' ? P1 Q1]; inversion H2 as [|t0 ? ts' ? P2 Q2]; subst. inversion HR as [|? ? R1 R2]; subst.
    destruct (IH Rs' ts' Q1 Q2 R2) as (G1 & G2 & G3). split; [|split].
    + constructor; auto. apply (rot_ext d W0); auto. apply beq_sym; auto.
    + constructor; auto. destruct P1 as [S1 E1]. split; auto. intros i j Hi Hj. rewrite E1, B by lia. reflexivity.
    + constructor; auto. destruct P2 as [S2 E2]. split; auto. intros i j Hi Hj. rewrite E2, B by lia. reflexivity.
Qed.
End Cand.

(** ** Averaging *)
Lemma nth_repeat_lt {A} (u v : A) n : forall i, (i < n)%nat -> nth i (repeat u n) v = u.
Proof. induction n as [|n IH]; intros [|i] Hi; cbn; auto; try lia. apply IH. lia. Qed.
Lemma wsum_same d c0 c Rs Ws : Forall2 (same_part d c0 c) Rs Ws -> forall ws i j, (i < d)%nat -> (j < c)%nat ->
  wsum ws Rs i j = wsum ws Ws i (c0 + j)%nat.
Proof.
  unfold wsum. induction 1 as [|A W Rs Ws [_ E] F IH]; intros ws i j Hi Hj; destruct ws as [|w ws]; try reflexivity.
  cbn [combine]. rewrite !rsumL_cons. cbn [fst snd]. rewrite IH, E by auto. reflexivity.
Qed.
Lemma spread_same d Rs Ws : Forall2 (same_part d 0 d) Rs Ws -> forall ws Q, spread d d ws Rs Q = spread d d ws Ws Q.
Proof.
  unfold spread. induction 1 as [|A W Rs Ws [_ E] F IH]; intros ws Q; destruct ws as [|w ws]; try reflexivity.
  cbn [combine]. rewrite !rsumL_cons. cbn [fst snd]. rewrite IH. do 2 f_equal. unfold dist2. apply rsum_ext. intros i Hi. apply rsum_ext. intros j Hj.
  rewrite E by auto. reflexivity.
Qed.
Lemma F2_length {A B} (P : A -> B -> Prop) l l' : Forall2 P l l' -> length l = length l'.
Proof. induction 1; cbn; auto. Qed.
Lemma F2_nth {A B} (P : A -> B -> Prop) l l' (u : A) (v : B) : Forall2 P l l' -> forall i, (i < length l)%nat -> P (nth i l u) (nth i l' v).
Proof. induction 1; intros [|i] Hi; cbn in *; try lia; auto. apply IHForall2. lia. Qed.
Lemma F2_left {A B} (P : A -> B -> Prop) (Q : A -> Prop) l l' : Forall2 P l l' -> (forall a b, P a b -> Q a) -> Forall Q l.
Proof. induction 1; intros HQ; constructor; eauto. Qed.
Lemma cwise_one_left n (ws : list R) : length ws = n -> cwise (repeat 1 n) ws = ws.
Proof.
  revert n. induction ws as [|x a IH]; intros [|n] L; try discriminate; auto.
  cbn [repeat]. unfold cwise. cbn [combine map fst snd]. fold (cwise (repeat 1 n) a). rewrite IH by (simpl in L; lia). f_equal. numr. ring.
Qed.
Lemma sum_ones n : nsumL (fun x : R => x) (repeat 1 n) = INR n.
Proof. induction n as [|n IH]; [reflexivity|]. cbn [repeat]. rewrite rsumL_cons, IH, S_INR. ring. Qed.
Lemma wsum_ones Ms i j : wsum (repeat 1 (length Ms)) Ms i j = nsumL (fun M : Mx R => M i j) Ms.
Proof.
  unfold wsum. induction Ms as [|M Ms IH]; [reflexivity|]. cbn [length repeat combine]. rewrite !rsumL_cons, IH. cbn [fst snd]. ring.
Qed.

Lemma translation_mean d tVec : tVec <> [] -> Forall (sized d 1) tVec ->
  exists t, singleTranslationAveraging tVec [] = Ok t /\ sized d 1 t /\
    forall i, INR (length tVec) * t i O = nsumL (fun v : Mx R => v i O) tVec.
Proof.
  intros N HS. unfold singleTranslationAveraging.
  destruct tVec as [|t0 tl]; [congruence|]. set (tVec := t0 :: tl) in *.
  assert (D0 : mrows t0 = d) by (apply Forall_inv in HS; apply HS).
  rewrite D0. unfold ones. change (@n1 R NumR) with 1. rewrite or_default_in_force.
  assert (Q : forallb (fun t => has_size t d 1) tVec = true).
  { apply (forallb_Forall _ (sized d 1)); auto. intros; apply has_size_sized. }
  rewrite Q. unfold require. eexists; split; [reflexivity|]. split; [split; auto|].
  replace (in_force (length tVec) [] 1) with (repeat 1 (length tVec)) by reflexivity.
  intros i. cbn [Num.mat]. rewrite (proj2 (wsum_fold _ _)), fold_sum, sum_ones. cbn [Num.mat mzero].
  fold (wsum (repeat 1 (length tVec)) tVec i O). rewrite wsum_ones. numr. rewrite !Rplus_0_l. field.
  apply not_0_INR. discriminate.
Qed.

Lemma pick_all {A} (l : list A) (u : A) is : forall acc, (forall i, In i is -> (i < length l)%nat) ->
  foldM (fun s i => do t <- vec_get l i; Ok (s ++ [t])) acc is = Ok (acc ++ map (fun i => nth i l u) is).
Proof.
  induction is as [|i is IH]; intros acc H; [cbn; rewrite app_nil_r; reflexivity|].
  cbn [foldM]. unfold vec_get at 1. rewrite (nth_error_nth' l u) by (apply H; left; reflexivity). cbn [bind].
  rewrite IH by (intros; apply H; right; auto). cbn [map]. rewrite <- app_assoc. reflexivity.
Qed.

(** The pose made of a rotation and a translation. *)
Lemma built d (Q t : Mx R) : sized d d Q -> sized d 1 t -> exists P,
  (do T <- pose_identity d; do T <- pa_set_rot T 0 Q; do T <- pa_set_trans T 0 t; Ok (Some T)) = Ok (Some P) /\ wf1 d P /\
  (forall i j, (i < d)%nat -> (j < d)%nat -> pa_X P i j = Q i j) /\ (forall i, (i < d)%nat -> pa_X P i d = t i O).
Proof.
  intros [Q1 Q2] [t1 t2]. destruct (pose_identity_spec d) as (e & -> & (A1 & A2 & A3 & A4 & A5) & _). cbn [bind].
  unfold pa_set_rot, pa_set_trans. rewrite A3. cbn [Nat.ltb Nat.leb check]. unfold has_size. rewrite Q1, Q2, A1, A2, !Nat.eqb_refl. cbn [andb require bind pa_n pa_r pa_d pa_X].
  cbn [Nat.leb check]. rewrite t1, t2, !Nat.eqb_refl. cbn [andb require bind].
  eexists. split; [reflexivity|]. cbn [pa_n pa_r pa_d pa_X Nat.mul Nat.add]. split; [repeat split; auto|]. split.
  - intros i j Hi Hj. rewrite setblock_out by (left; lia). exact (setblock_in (pa_X e) Q 0 i j ltac:(lia) ltac:(lia)).
  - intros i Hi. pose proof (setblock_in (msetblock (pa_X e) 0 0 Q) t d i 0 ltac:(lia) ltac:(lia)) as E. rewrite Nat.add_0_r in E. exact E.
Qed.
Lemma built_rigid d (Q : Mx R) P : rotation d Q -> wf1 d P -> (forall i j, (i < d)%nat -> (j < d)%nat -> pa_X P i j = Q i j) -> rigid d P.
Proof.
  intros (_ & _ & O & D) (A1 & A2 & A3 & A4 & A5) E. repeat (split; [assumption|]). split.
  - apply (orth_ext d d Q); auto. intros. symmetry. auto.
  - rewrite <- D. apply det_ext. intros i j Hi Hj. auto.
Qed.

(** What the rotation averaging of [computeRobustNeighborTransformTwoStage] returns. *)
Section Two.
Context (svd : Mx R -> Mx R * Mx R) (dt : Mx R -> R) (mudiv : R -> R -> R) (d : nat) (Rs Ws : list (Mx R)) (thr : R).
Context (Hd : (d = 2 \/ d = 3)%nat) (HF : Forall2 (same_part d 0 d) Rs Ws) (HW : Forall (fun W => rot_block d (Num.mat W)) Ws).
Context (Hsv : svd_sized svd d) (Hav : averages_ok svd d Ws) (Hdet : det_ok dt d) (Hdiv : div_ok mudiv) (Hz : div_zero_big mudiv).
Context (NE : Rs <> []) (Ht : thr = angular2ChordalSO3 sin (1 / 2)).
Let n := length Rs.

Lemma half_pi : 0 < 1 / 2 <= PI.
Proof. pose proof PI2_1. lra. Qed.

Lemma n_pos : (0 < n)%nat.
Proof. unfold n. destruct Rs; [congruence|cbn; lia]. Qed.

Lemma avg_ok ws : (length ws = n -> 0 < nsumL (fun w => w) ws) -> exists Q, singleRotationAveraging svd dt Rs ws = Ok Q /\ rotation d Q /\
  forall Q', rotation d Q' -> spread d d (in_force n ws 1) Ws Q <= spread d d (in_force n ws 1) Ws Q'.
Proof.
  intros P. pose proof (F2_length _ _ _ HF) as LW.
  destruct (rotation_average svd dt d Rs ws NE) as (Q & E & RQ & M).
  - eapply F2_left; [exact HF|]. intros A B [S _]. exact S.
  - intros M (M1 & M2 & M3). apply (Hav (in_force n ws 1)); [rewrite in_force_length; exact LW| |split; auto|].
    + unfold in_force. destruct (Nat.eqb_spec (length ws) n); [auto|]. rewrite sum_ones. apply lt_0_INR, n_pos.
    + intros i j Hi Hj. cbn [mrows mcols Num.mat] in *. rewrite M3 by lia. exact (wsum_same _ _ _ _ _ HF _ _ _ Hi Hj).
  - intros A A1 A2. apply Hdet. split; auto.
  - exists Q. split; [exact E|]. split; [exact RQ|]. intros Q' RQ'. specialize (M Q' RQ').
    rewrite !(spread_same d Rs Ws HF) in M. exact M.
Qed.

Lemma rot_of_pick i : (i < n)%nat -> rot_block d (pick Ws i) /\ forall Q : Mx R, rot_residual d (repeat 1 n) Rs Q i = dist2 d d Q (pick Ws i).
Proof.
  intros Hi. pose proof (F2_length _ _ _ HF) as LW. split.
  - rewrite Forall_forall in HW. apply HW. apply nth_In. fold n in LW. lia.
  - intros Q. unfold rot_residual. rewrite nth_repeat_lt by lia. rewrite Rmult_1_l.
    destruct (F2_nth _ _ _ (mzero d d) (mzero 0 0) HF i Hi) as [_ E]. unfold dist2. apply rsum_ext. intros a Ha. apply rsum_ext. intros b Hb.
    rewrite E by auto. reflexivity.
Qed.

Lemma near_iff (Q : Mx R) i : rotation d Q -> (i < n)%nat -> (rot_residual d (repeat 1 n) Rs Q i < thr * thr <-> within (1 / 2) d Q (pick Ws i)).
Proof.
  intros (_ & _ & O & D) Hi. destruct (rot_of_pick i Hi) as [RW ->]. 
  destruct (angle_threshold d Q (pick Ws i) Hd (conj O D) RW) as (t & At & Ut & H).
  specialize (H (1 / 2)). rewrite Ht. pose proof half_pi. rewrite H by lra. split.
  - intros L. exists t. auto.
  - intros (t' & A' & L). rewrite <- (Ut t' A'). exact L.
Qed.

Lemma two_core : exists Q used calls, robustRotation_calls svd dt mudiv Rs (ones n) thr = Ok (Q, used, calls) /\
  rotation d Q /\ StronglySorted lt used /\ (forall i, In i used -> (i < n)%nat /\ within (1 / 2) d Q (pick Ws i)) /\
  (length calls = 1001%nat \/ forall i, (i < n)%nat -> within (1 / 2) d Q (pick Ws i) -> In i used) /\
  (exists ws, length ws = n /\ 0 < nsumL (fun w => w) ws /\ forall Q', rotation d Q' -> spread d d ws Ws Q <= spread d d ws Ws Q') /\
  ((forall W, In W Ws -> beq d (Num.mat W) (pick Ws 0)) -> used = seq 0 n /\ forall i j, (i < d)%nat -> (j < d)%nat -> Q i j = pick Ws 0 i j).
Proof.
  pose proof n_pos as Hn. pose proof (F2_length _ _ _ HF) as LW. fold n in LW.
  assert (HS : Forall (sized d d) Rs) by (eapply F2_left; [exact HF|]; intros A B [S _]; exact S).
  assert (HK : Forall (fun y => 0 < y) (@ones R NumR n)) by (apply Forall_forall; intros y Hy; apply repeat_spec in Hy; subst; numr; lra).
  assert (T0 : 0 < thr) by (rewrite Ht; apply threshold_pos; exact half_pi).
  assert (EK : in_force n (@ones R NumR n) 1 = repeat 1 n) by (unfold in_force, ones; rewrite repeat_length, Nat.eqb_refl; reflexivity).
  destruct (robust_rotation_complete svd dt mudiv d Rs (ones n) thr NE HS HK T0 Hsv Hdiv Hz) as (Q0 & Q & used & calls & E0 & E & EQ & HC).
  destruct (robust_rotation_inliers svd dt mudiv d Rs (ones n) thr NE HS HK T0 Hsv Hdiv) as (Q1 & used1 & E1 & So & In1 & (Q01 & EQ01 & Same)).
  destruct (robust_rotation_weights svd dt mudiv d Rs (ones n) thr NE HS HK T0 Hsv Hdiv) as (Q2 & used2 & calls2 & E2 & Cw & _).
  rewrite E in E2. injection E2 as <- <- <-. unfold robustSingleRotationAveraging in E1. rewrite E in E1. injection E1 as <- <-.
  rewrite E0 in EQ01. injection EQ01 as <-. fold n in E0, E, EQ, HC, So, In1, Same, Cw. rewrite EK in E0, EQ, HC, In1, Same, Cw.
  assert (LQ : forall w, In w calls -> length w = n /\ 0 < nsumL (fun w => w) w).
  { intros w Hw. rewrite Forall_forall in Cw. destruct (Cw w Hw) as [A B]. rewrite cwise_one_left in B by auto. auto. }
  set (wl := in_force n (cwise (repeat 1 n) (last calls [])) 1) in *.
  assert (LA : length (cwise (repeat 1 n) (last calls [])) = n -> 0 < nsumL (fun w => w) (cwise (repeat 1 n) (last calls []))).
  { destruct calls as [|c0 cl]. { cbn [last]. unfold cwise. rewrite combine_nil. cbn. lia. }
    assert (Hin : In (last (c0 :: cl) []) (c0 :: cl)). { clear. revert c0. induction cl as [|c1 cl IH]; intros c0; [left; reflexivity|]. right. exact (IH c1). }
    destruct (LQ _ Hin) as [A B]. rewrite cwise_one_left by auto. auto. }
  assert (R0 : rotation d Q0 /\ forall Q', rotation d Q' -> spread d d (repeat 1 n) Ws Q0 <= spread d d (repeat 1 n) Ws Q').
  { destruct (avg_ok (repeat 1 n)) as (Q0' & E0' & RQ0 & M0); [intros _; rewrite sum_ones; apply lt_0_INR; auto|].
    rewrite E0 in E0'. injection E0' as <-. split; [auto|]. intros Q' RQ'. specialize (M0 Q' RQ').
    unfold in_force in M0. rewrite repeat_length, Nat.eqb_refl in M0. exact M0. }
  destruct R0 as [R0 M0].
  destruct (avg_ok _ LA) as (Q' & E' & RQ & MQ). rewrite EQ in E'. injection E' as <-. fold wl in MQ.
  exists Q, used, calls. split; [exact E|]. split; [exact RQ|]. split; [exact So|]. split; [|split; [|split]].
  - intros i Hi. destruct (In1 i Hi) as [A B]. split; [exact A|]. apply near_iff; auto.
  - destruct HC as [HC|HC]; [|left; exact HC|right].
    { intros i Hi. destruct (rot_of_pick i Hi) as [RW ->]. destruct R0 as (_ & _ & O0 & D0).
      pose proof (dist2_le8 d Q0 (pick Ws i) Hd (conj O0 D0) RW) as L8.
      assert (L : 1 / 1000 < thr * thr); [|lra].
      rewrite Ht, threshold_sq. pose proof half_pi.
      assert (S4 : 1 / 8 <= sin (1 / 2 / 2)).
      { pose proof (SIN (1 / 2 / 2) ltac:(lra) ltac:(pose proof PI2_1; lra)) as [B _]. unfold sin_lb, sin_approx, sum_f_R0, sin_term in B. cbn in B. lra. }
      nra. }
    intros i Hi Wi. apply HC. split; [exact Hi|]. apply near_iff; auto.
  - exists wl. split; [apply in_force_length|]. split; [|exact MQ].
    unfold wl, in_force. destruct (Nat.eqb_spec (length (cwise (repeat 1 n) (last calls []))) n) as [El|_]; [auto|]. rewrite sum_ones. apply lt_0_INR; auto.
  - intros Eq. assert (P0 : rot_block d (pick Ws 0)) by (apply rot_of_pick; auto).
    set (P := mkMx d d (pick Ws 0)). assert (RP : rotation d P) by (destruct P0; repeat split; auto).
    assert (Z : spread d d (repeat 1 n) Ws P = 0).
    { unfold spread. apply rsumL_zero. intros [w W] Hw. cbn [fst snd]. apply in_combine_r in Hw.
      replace (dist2 d d P W) with 0; [ring|]. symmetry. unfold dist2. apply rsum_zero'. intros i Hi. apply rsum_zero'. intros j Hj.
      rewrite (Eq W Hw i j) by lia. unfold P, sq. cbn [Num.mat]. ring. }
    pose proof (M0 P RP) as L0. rewrite Z in L0.
    assert (D0 : forall i, (i < n)%nat -> dist2 d d Q0 (pick Ws i) = 0).
    { intros i Hi. assert (In (1, pick Ws i) (combine (repeat 1 n) Ws)).
      { replace (1, pick Ws i) with (nth i (combine (repeat 1 n) Ws) (1, mzero 0 0)).
        - apply nth_In. rewrite combine_length, repeat_length. lia.
        - rewrite combine_nth by (rewrite repeat_length; lia). rewrite nth_repeat_lt by lia. reflexivity. }
      assert (NN : forall q : R * Mx R, In q (combine (repeat 1 n) Ws) -> 0 <= fst q * dist2 d d Q0 (snd q)).
      { intros [w W] Hq. apply in_combine_l in Hq. apply repeat_spec in Hq. cbn [fst snd]. subst w. rewrite Rmult_1_l. unfold dist2.
        repeat (apply rsum_nonneg; intros). apply Rle_0_sqr. }
      pose proof (rsumL_nonneg_zero _ _ NN) as ZZ. assert (S0 : spread d d (repeat 1 n) Ws Q0 = 0).
      { apply Rle_antisym; [exact L0|]. unfold spread. apply rsumL_nonneg. exact NN. }
      specialize (ZZ S0 _ H). cbn [fst snd] in ZZ. lra. }
    destruct Same as [-> ->].
    { intros i Hi. destruct (rot_of_pick i Hi) as [_ ->]. rewrite D0 by auto. nra. }
    split; [reflexivity|]. intros i j Hi Hj. exact (dist2_zero d d Q0 (pick Ws 0) (D0 0%nat Hn) i j Hi Hj).
Qed.
End Two.

(** ** The two functions *)
Lemma list_eq_dec_nil {A} (l : list A) : {l = []} + {l <> []}.
Proof. destruct l; [left|right]; congruence. Qed.

Section Top.
Context (x : Ext R) (id : N) (p : AgentParams R) (os : list (aop R)) (a : Agent R) (k : N) (dict : list (PoseID * Mx R)).
Context (Tn : PoseID -> nat -> nat -> R) (T : PoseArr R) (YL : Mx R) (Ws : list (Mx R)).
Context (Ra : areach x id p os a).
Let d := p_d p.
Let ms := evidence id k dict (pg_shared (a_pg a)).
Context (Hd : (d = 2 \/ d = 3)%nat) (HT : a_TLocal a = Some T) (HY : a_YLift a = Some YL).
Context (Hh : hears (x_minv x) id k (p_r p) d (pg_shared (a_pg a)) YL T Tn dict).
Context (Hc : candidates id d Tn T ms Ws).
Context (Hsv : svd_sized (x_svd_full x) d) (Hav : averages_ok (x_svd_full x) d Ws) (Hdet : det_ok (x_det x) d) (Hdiv : div_ok (x_mudiv x)) (Hz : div_zero_big (x_mudiv x)).

Lemma ag_dim : dimension a = d /\ a_params a = p.
Proof.
  pose proof (areach_inv _ _ _ _ _ Ra) as I. destruct (hist_all _ _ _ _ _ Ra) as (_ & Hp & _). split; [|exact Hp].
  unfold dimension. rewrite (iv_d _ I), Hp. reflexivity.
Qed.

Lemma two_stage : x_maxrot x = angular2ChordalSO3 sin (1 / 2) -> (1 <= p_mininl p)%N ->
  exists o, ag_twoStage x a k dict = Ok o /\ (ms = [] -> o = None) /\
  (ms <> [] -> exists Q used, rotation d Q /\ StronglySorted lt used /\
    (forall i, In i used -> (i < length ms)%nat /\ within (1 / 2) d Q (pick Ws i)) /\
    ((exists Rs calls, Forall2 (same_part d 0 d) Rs Ws /\
        robustRotation_calls (x_svd_full x) (x_det x) (x_mudiv x) Rs (ones (length Rs)) (x_maxrot x) = Ok (Q, used, calls) /\ length calls = 1001%nat) \/
     forall i, (i < length ms)%nat -> within (1 / 2) d Q (pick Ws i) -> In i used) /\
    (exists ws, length ws = length ms /\ 0 < nsumL (fun w => w) ws /\ forall Q', rotation d Q' -> spread d d ws Ws Q <= spread d d ws Ws Q') /\
    ((forall W, In W Ws -> beq d (Num.mat W) (pick Ws 0)) -> used = seq 0 (length ms) /\ forall i j, (i < d)%nat -> (j < d)%nat -> Q i j = pick Ws 0 i j) /\
    match o with
    | None => (N.of_nat (length used) < p_mininl p)%N
    | Some P => (p_mininl p <= N.of_nat (length used))%N /\ rigid d P /\
        (forall i j, (i < d)%nat -> (j < d)%nat -> pa_X P i j = Q i j) /\ mean_translation d Ws used (pa_X P)
    end).
Proof.
  intros Hthr Hmin. destruct ag_dim as [Dd Dp].
  destruct (candidates_given x id p os a k dict Tn T YL Ra HT HY Hh Ws Hc) as (Rs & ts & EC & HW & H1 & H2).
  fold d in HW, H1, H2. pose proof (F2_length _ _ _ Hc) as Lm. pose proof (F2_length _ _ _ H1) as LR. pose proof (F2_length _ _ _ H2) as Lt.
  unfold ag_twoStage. rewrite EC. cbn [bind].
  destruct (list_eq_dec_nil Rs) as [E0|NE].
  { exists None. rewrite E0. split; [reflexivity|]. split; [auto|]. intros Nm. exfalso. apply Nm. rewrite E0 in LR. cbn in LR.
    destruct ms; [reflexivity|cbn in Lm; lia]. }
  destruct (two_core (x_svd_full x) (x_det x) (x_mudiv x) d Rs Ws (x_maxrot x) Hd H1 HW Hsv Hav Hdet Hdiv Hz NE Hthr)
    as (Q & used & calls & EQ & RQ & So & In1 & Co & Mi & Cons).
  assert (ER : robustSingleRotationAveraging (x_svd_full x) (x_det x) (x_mudiv x) Rs (ones (length Rs)) (x_maxrot x) = Ok (Q, used)).
  { unfold robustSingleRotationAveraging. rewrite EQ. reflexivity. }
  assert (Ln : length Rs = length ms) by congruence.
  assert (G : exists o, (if (N.of_nat (length used) <? p_mininl p)%N then Ok None else
      do tIn <- foldM (fun l i => do t <- vec_get ts i; Ok (l ++ [t])) [] used;
      do tOpt <- singleTranslationAveraging tIn [];
      do T <- pose_identity d; do T <- pa_set_rot T 0 Q; do T <- pa_set_trans T 0 tOpt; Ok (Some T)) = Ok o /\
    match o with
    | None => (N.of_nat (length used) < p_mininl p)%N
    | Some P => (p_mininl p <= N.of_nat (length used))%N /\ rigid d P /\
        (forall i j, (i < d)%nat -> (j < d)%nat -> pa_X P i j = Q i j) /\ mean_translation d Ws used (pa_X P)
    end).
  { destruct (N.ltb_spec (N.of_nat (length used)) (p_mininl p)) as [L|L]; [exists None; auto|].
    rewrite (pick_all ts (mzero d 1)) by (intros i Hi; destruct (In1 i Hi); lia). cbn [app bind].
    destruct (translation_mean d (map (fun i => nth i ts (mzero d 1)) used)) as (t & Et & St & Mt).
    - intros E. apply map_eq_nil in E. subst used. cbn in L. lia.
    - apply Forall_forall. intros v Hv. apply in_map_iff in Hv. destruct Hv as (i & <- & Hi). destruct (In1 i Hi) as [Hi' _].
      destruct (F2_nth _ _ _ (mzero d 1) (mzero 0 0) H2 i) as [S _]; [lia|exact S].
    - rewrite Et. cbn [bind]. destruct RQ as (Q1 & Q2 & Q3). destruct (built d Q t (conj Q1 Q2) St) as (P & EP & WP & P1 & P2).
      rewrite EP. exists (Some P). split; [reflexivity|]. split; [exact L|]. split; [apply (built_rigid d Q); auto; repeat split; auto; apply Q3|]. split; [exact P1|].
      intros i Hi. rewrite P2 by auto. rewrite map_length in Mt. rewrite Mt, rsumL_map. apply rsumL_ext. intros q Hq. destruct (In1 q Hq) as [Hq' _].
      destruct (F2_nth _ _ _ (mzero d 1) (mzero 0 0) H2 q) as [_ E]; [lia|]. rewrite E by lia. unfold pick. rewrite Nat.add_0_r. reflexivity. }
  destruct G as (o & Eo & Ho). exists o. split.
  { destruct Rs as [|R0 Rl]; [congruence|]. rewrite ER. cbn [bind]. rewrite Dp, Dd. exact Eo. }
  split; [intros Em; exfalso; apply NE; rewrite Em in Ln; destruct Rs; [reflexivity|discriminate]|].
  intros _. rewrite <- Ln. exists Q, used. split; [exact RQ|]. split; [exact So|]. split; [exact In1|].
  split; [destruct Co as [Co|Co]; [left; exists Rs, calls; auto|right; exact Co]|]. split; [exact Mi|]. split; [exact Cons|exact Ho].
Qed.

(** Candidates that agree are taken as they are. *)
Lemma two_consistent W0 : x_maxrot x = angular2ChordalSO3 sin (1 / 2) -> (1 <= p_mininl p)%N -> (p_mininl p <= N.of_nat (length ms))%N ->
  (forall W, In W Ws -> beq d (Num.mat W) W0) -> exists P, ag_twoStage x a k dict = Ok (Some P) /\ rigid d P /\ beq d (pa_X P) W0.
Proof.
  intros Hthr Hmin Hlen HE. destruct (two_stage Hthr Hmin) as (o & Eo & _ & Ho).
  assert (NE : ms <> []). { intros E. rewrite E in Hlen. cbn in Hlen. lia. }
  pose proof (F2_length _ _ _ Hc) as Lm. assert (L0 : (0 < length ms)%nat) by (destruct ms; [congruence|cbn; lia]).
  assert (P0 : forall i, (i < length ms)%nat -> beq d (pick Ws i) W0) by (intros i Hi; apply HE, nth_In; lia).
  destruct (Ho NE) as (Q & used & RQ & _ & _ & _ & _ & Cons & Res).
  destruct Cons as [-> EQ]. { intros W HW. apply (beq_trans d _ W0); [auto|]. apply beq_sym. auto. }
  rewrite seq_length in Res. destruct o as [P|]; [|lia]. destruct Res as (_ & RP & EP & MP).
  exists P. split; [exact Eo|]. split; [exact RP|]. intros i j Hi Hj. destruct (Nat.eq_dec j d) as [->|Nj].
  - specialize (MP i Hi). rewrite seq_length in MP.
    assert (MS : nsumL (fun q => pick Ws q i d) (seq 0 (length ms)) = INR (length ms) * W0 i d).
    { rewrite (rsumL_ext _ (fun _ => W0 i d)); [|intros q Hq; apply in_seq in Hq; apply P0; lia].
      generalize 0%nat. generalize (length ms) as m. clear. induction m as [|m IH]; intros s0; [cbn [seq]; rewrite rsumL_nil; cbn; ring|].
      cbn [seq]. rewrite rsumL_cons, IH, S_INR. ring. }
    rewrite MS in MP. apply (Rmult_eq_reg_l (INR (length ms))); [exact MP|]. apply not_0_INR. lia.
  - rewrite EP, EQ by lia. apply P0; lia.
Qed.
End Top.

(** ** Entering the frame *)
Section Enter.
Context (x : Ext R) (id : N) (p : AgentParams R) (os : list (aop R)) (a a' : Agent R) (k : N) (dict : list (PoseID * Mx R)).
Context (Ra : areach x id p os a) (Hs : a_state a = WAIT_FOR_INITIALIZATION) (Hr : nbr_ready a k = true).
Context (E : ag_updateNeighborPoses x a k dict = Ok a').
Let d := p_d p.

Lemma update_enters : ag_twoStage x a k dict = Ok None /\ a' = a \/
  exists P T YL, ag_twoStage x a k dict = Ok (Some P) /\ a_state a' = INITIALIZED /\ a_TLocal a = Some T /\ a_YLift a = Some YL /\
    (rigid d P -> forall i l j, (i < num_poses a)%nat -> (l < p_r p)%nat -> (j < d + 1)%nat ->
       pblk (a_X a') i l j = lift d YL (comp d (pa_X P) (pblk T i)) l j).
Proof.
  pose proof (areach_inv _ _ _ _ _ Ra) as I.
  destruct (updNbr_form _ _ _ _ _ E I) as (_ & [[N _]|(_ & a1 & I1 & [H1|(_ & P & HP & EP)] & H2 & H3)]); [congruence| |].
  - left. split; [auto|]. destruct H3 as [[_ ->]|[Hi _]]; [exact H1|]. subst a1. unfold is_init in Hi. rewrite Hs in Hi. discriminate.
  - right. destruct (initGlobal_inv _ _ _ I EP) as [_ S1].
    assert (F : a_state a' = INITIALIZED /\ a_X a' = a_X a1).
    { destruct H3 as [[_ ->]|[_ (c & _ & ->)]]; auto. }
    destruct F as [F1 F2].
    destruct (initGlobal_X a P a1 EP) as (YL & T & _ & HY & HT & _).
    exists P, T, YL. split; [exact HP|]. split; [exact F1|]. split; [exact HT|]. split; [exact HY|]. intros RP. rewrite F2.
    assert (TW : is_traj P). { destruct RP as (R1 & R2 & R3 & R4 & R5 & _). unfold is_traj, arr. rewrite R1, R2, R3, R4, R5, Nat.mul_1_r. auto. }
    destruct (c30_enter x id p os a P a1 Ra EP TW) as (T2 & Y2 & HT2 & HY2 & _ & _ & _ & VX & _).
    assert (T2 = T) by congruence. assert (Y2 = YL) by congruence. subst T2 Y2. apply VX. apply RP.
Qed.

(** Measurements that agree hold afterwards. *)
Lemma update_residual Tn T YL P m : a_TLocal a = Some T -> a_YLift a = Some YL ->
  hears (x_minv x) id k (p_r p) d (pg_shared (a_pg a)) YL T Tn dict -> msorted pose_ltb dict ->
  ag_twoStage x a k dict = Ok (Some P) -> rigid d P -> In m (evidence id k dict (pg_shared (a_pg a))) ->
  joined id d m (Tn (other_pose id m)) (pblk T (N.to_nat (frame_id (own_pose id m)))) (pa_X P) ->
  ag_residual a' m = Ok (Some 0).
Proof.
  intros HT HY Hh Hso HP RP Hm J.
  pose proof (areach_inv _ _ _ _ _ Ra) as I. destruct (hist_all _ _ _ _ _ Ra) as (Hid & Hp & _).
  destruct (updNbr_form _ _ _ _ _ E I) as (_ & [[N _]|(_ & a1 & I1 & [H1|(_ & P1 & HP1 & EP)] & H2 & H3)]); [congruence| |].
  { specialize (H2 Hs H1). congruence. }
  rewrite HP in HP1. injection HP1 as <-. destruct (initGlobal_inv _ _ _ I EP) as [_ S1].
  destruct H3 as [[F _]|(_ & c & Ec & ->)]; [unfold is_init in F; rewrite S1 in F; discriminate|].
  apply filter_In in Hm. destruct Hm as [Hin Hm]. apply andb_true_iff in Hm. destruct Hm as [Hk Hm]. apply N.eqb_eq in Hk.
  destruct (mfind pose_ltb (other_pose id m) dict) as [v|] eqn:Hv; [|discriminate].
  destruct Hh as (_ & _ & _ & Sent & _).
  assert (Q : robot_id (other_pose id m) = k). { rewrite <- Hk. unfold other_pose, other_robot. destruct (mr1 m =? id)%N; reflexivity. }
  destruct (Sent _ _ Q Hv) as (R3 & S3 & E3).
  pose proof RP as (R1 & R2 & R4 & R5 & R6 & _).
  assert (TW : is_traj P). { unfold is_traj, arr. rewrite R1, R2, R4, R5, R6, Nat.mul_1_r. auto. }
  destruct (c30_enter x id p os a P a1 Ra EP TW) as (T2 & Y2 & HT2 & HY2 & _ & _ & AX & VX & _).
  assert (T2 = T) by congruence. assert (Y2 = YL) by congruence. subst T2 Y2. specialize (VX R4).
  destruct (initGlobal_form _ _ _ EP) as (G1 & G2 & _ & G3 & _ & _ & _ & _ & _ & _ & _ & _ & _ & _ & _ & _ & _ & _ & _ & _ & G4).
  destruct (shared_facts a m I Hin) as (F1 & F2 & F3 & F4 & F5 & F6). rewrite F6 in F5.
  assert (GS := weq_gsame _ _ (iv_pg _ I) G3).
  assert (NP : num_poses a1 = num_poses a). { unfold num_poses. f_equal. apply GS. }
  rewrite Hid in F2, F5, F6. rewrite Hp in F3, F4.
  assert (Hc : mfind pose_ltb (other_pose id m) c = Some v).
  { destruct (store_poses_spec _ _ _ _ _ Ec) as (_ & _ & D3). rewrite (D3 Hso), Hv.
    assert (RQ : requireNeighborPose (a_pg a1) (other_pose id m) = true).
    { assert (RQ0 : requireNeighborPose (a_pg a) (other_pose id m) = true).
      { apply touches_npub; auto. exists m. split; [exact Hin|]. rewrite Hid. reflexivity. }
      unfold requireNeighborPose in *. destruct GS. congruence. }
    rewrite RQ. reflexivity. }
  apply (residual_zero a1 m v YL (comp d (pa_X P) (pblk T (N.to_nat (frame_id (own_pose id m))))) (Tn (other_pose id m)) c);
    rewrite ?G1, ?G2, ?Hid, ?Hp, ?NP; auto.
Qed.
End Enter.

(** ** The one-stage variant *)
Lemma spread_trans d ts Ws (A : Mx R) : Forall2 (same_part d d 1) ts Ws -> forall us,
  spread d 1 us ts A = nsumL (fun q : R * Mx R => fst q * dist2 d 1 A (mkMx d 1 (fun b _ => snd q b d))) (combine us Ws).
Proof.
  unfold spread. induction 1 as [|v W ts Ws [S1 E1] HG IH]; intros us; destruct us as [|c cl]; try reflexivity.
  cbn [combine]. rewrite !rsumL_cons. cbn [fst snd]. rewrite (IH cl). do 2 f_equal. unfold dist2. apply rsum_ext. intros b Hb.
  rewrite !rsum_S, !rsum_0. cbn [Num.mat]. rewrite E1, Nat.add_0_r by lia. reflexivity.
Qed.

Section One.
Context (svd : Mx R -> Mx R * Mx R) (dt : Mx R -> R) (mudiv : R -> R -> R) (d : nat) (Rs ts Ws : list (Mx R)) (cbar : R).
Context (Hd : (d = 2 \/ d = 3)%nat) (HF : Forall2 (same_part d 0 d) Rs Ws) (HG : Forall2 (same_part d d 1) ts Ws)
  (HW : Forall (fun W => rot_block d (Num.mat W)) Ws).
Context (Hsv : svd_sized svd d) (Hav : averages_ok svd d Ws) (Hdet : det_ok dt d) (Hdiv : div_ok mudiv) (Hz : div_zero_big mudiv).
Context (NE : Rs <> []) (Hcb : 0 < cbar).
Let n := length Rs.
Let kap := repeat (182 / 100) n.
Let tau := repeat (1 / 100) n.

Lemma sum_repeat c m : nsumL (fun w : R => w) (repeat c m) = INR m * c.
Proof. induction m as [|m IH]; [cbn; ring|]. cbn [repeat]. rewrite rsumL_cons, IH, S_INR. ring. Qed.

Lemma mism i (Q t : Mx R) : (i < n)%nat -> rot_block d Q -> exists th, angle d Q (pick Ws i) th /\
  pose_residual d kap tau Rs ts Q t i = mismatch d th t (pick Ws i).
Proof.
  intros Hi RQ. destruct (rot_of_pick d Rs Ws Hd HF HW i Hi) as [RW ER].
  destruct (angle_exists d Q (pick Ws i) Hd RQ RW) as (th & Ath). exists th. split; [exact Ath|].
  unfold pose_residual, mismatch, rot_residual, kap, tau. rewrite !nth_repeat_lt by lia.
  pose proof (F2_length _ _ _ HF) as L1. pose proof (F2_length _ _ _ HG) as L2.
  destruct (F2_nth _ _ _ (mzero d d) (mzero 0 0) HF i Hi) as [_ E1].
  destruct (F2_nth _ _ _ (mzero d 1) (mzero 0 0) HG i) as [_ E2]; [fold n in L1; lia|]. fold (pick Ws i) in E1, E2.
  replace (dist2 d d Q (nth i Rs (mzero d d))) with (8 * (sin (th / 2) * sin (th / 2))).
  2:{ rewrite <- (angle_dist d Q (pick Ws i) th (proj1 RQ) Ath). unfold dist2. apply rsum_ext. intros b Hb. apply rsum_ext. intros c Hc. rewrite E1 by auto. reflexivity. }
  f_equal; [ring|]. f_equal. unfold dist2. apply rsum_ext. intros b Hb. rewrite rsum_S, rsum_0, Rplus_0_l. rewrite E2, Nat.add_0_r by lia. reflexivity.
Qed.

Lemma one_core : exists Q t used, robustSinglePoseAveraging svd dt mudiv Rs ts kap tau cbar = Ok (Q, t, used) /\
  rotation d Q /\ sized d 1 t /\ StronglySorted lt used /\
  (forall i, In i used -> (i < n)%nat /\ exists th, angle d Q (pick Ws i) th /\ mismatch d th t (pick Ws i) < cbar * cbar) /\
  ((forall W, In W Ws -> beq d (Num.mat W) (pick Ws 0)) -> used = seq 0 n /\
     (forall i j, (i < d)%nat -> (j < d)%nat -> Q i j = pick Ws 0 i j) /\ forall i, (i < d)%nat -> t i O = pick Ws 0 i d).
Proof.
  pose proof (n_pos d Rs Ws Hd HF NE) as Hn. fold n in Hn. pose proof (F2_length _ _ _ HF) as LW. fold n in LW. pose proof (F2_length _ _ _ HG) as LG.
  assert (LT : length ts = length Rs) by (fold n; lia).
  assert (HS : Forall (sized d d) Rs) by (eapply F2_left; [exact HF|]; intros A B [S _]; exact S).
  assert (HS2 : Forall (sized d 1) ts) by (eapply F2_left; [exact HG|]; intros A B [S _]; exact S).
  assert (HK : Forall (fun y => 0 < y) kap) by (apply Forall_forall; intros y Hy; apply repeat_spec in Hy; subst; lra).
  assert (HA : Forall (fun y => 0 < y) tau) by (apply Forall_forall; intros y Hy; apply repeat_spec in Hy; subst; lra).
  assert (EK : in_force n kap 10000 = kap) by (apply in_force_self; apply repeat_length).
  assert (EA : in_force n tau 100 = tau) by (apply in_force_self; apply repeat_length).
  destruct (robust_pose_complete svd dt mudiv d Rs ts kap tau cbar NE LT HS HS2 HK HA Hcb Hsv Hdiv Hz) as (Q0 & t0 & Q & t & used & calls & E0 & E & EQ & _).
  destruct (robust_pose_inliers svd dt mudiv d Rs ts kap tau cbar NE LT HS HS2 HK HA Hcb Hsv Hdiv) as (Q1 & t1 & used1 & E1 & So & In1 & (Q01 & t01 & EQ01 & Same)).
  destruct (robust_pose_weights svd dt mudiv d Rs ts kap tau cbar NE LT HS HS2 HK HA Hcb Hsv Hdiv) as (Q2 & t2 & used2 & calls2 & E2 & Cw & _).
  rewrite E in E2. injection E2 as <- <- <- <-. pose proof E1 as E1'. unfold robustSinglePoseAveraging in E1. rewrite E in E1. injection E1 as <- <- <-.
  rewrite E0 in EQ01. injection EQ01 as <- <-. fold n in E0, EQ, In1, Same, Cw. rewrite EK, EA in E0, EQ, In1, Same. rewrite EK, EA in Cw.
  assert (Rl : exists R0 Rl, Rs = R0 :: Rl) by (destruct Rs as [|R0 Rl]; [congruence|eauto]).
  assert (Tl : exists v0 vl, ts = v0 :: vl) by (destruct ts as [|v0 vl]; [cbn in LT; fold n in LT; lia|eauto]).
  assert (SP : forall w u Q' t', singlePoseAveraging svd dt Rs ts w u = Ok (Q', t') ->
     singleTranslationAveraging ts u = Ok t' /\ singleRotationAveraging svd dt Rs w = Ok Q').
  { intros w u Q' t' ES. unfold singlePoseAveraging in ES. destruct Rl as (R0 & Rl & ERl), Tl as (v0 & vl & EVl). rewrite ERl, EVl in ES.
    apply check_Ok in ES. destruct ES as [_ ES]. apply check_Ok in ES. destruct ES as [_ ES]. apply bind_Ok in ES. destruct ES as (tt & ET & ES).
    apply bind_Ok in ES. destruct ES as (RR & ER & ES). injection ES as <- <-. rewrite <- ERl in ER. rewrite <- EVl in ET. auto. }
  set (lw := cwise kap (last calls [])) in *. set (lt := cwise tau (last calls [])) in *.
  assert (LA : length lw = n -> 0 < nsumL (fun w => w) lw).
  { unfold lw. destruct calls as [|c0 cl]. { cbn [last]. unfold cwise. rewrite combine_nil. cbn. lia. }
    assert (Hin : In (last (c0 :: cl) []) (c0 :: cl)). { clear. revert c0. induction cl as [|c1 cl IH]; intros c0; [left; reflexivity|]. right. exact (IH c1). }
    rewrite Forall_forall in Cw. intros _. apply (Cw _ Hin). }
  destruct (SP _ _ _ _ EQ) as [ET ER]. destruct (SP _ _ _ _ E0) as [ET0 ER0].
  destruct (avg_ok svd dt d Rs Ws Hd HF Hav Hdet NE lw LA) as (Q' & EQ' & RQ & _). rewrite ER in EQ'. injection EQ' as <-.
  assert (LA0 : length kap = n -> 0 < nsumL (fun w => w) kap).
  { intros _. unfold kap. rewrite sum_repeat. apply Rmult_lt_0_compat; [apply lt_0_INR; auto|lra]. }
  destruct (avg_ok svd dt d Rs Ws Hd HF Hav Hdet NE kap LA0) as (Q' & EQ' & RQ0 & M0). rewrite ER0 in EQ'. injection EQ' as <-.
  fold n in M0. rewrite (in_force_self n kap 1) in M0 by apply repeat_length.
  assert (St : sized d 1 t).
  { unfold singleTranslationAveraging in ET. destruct Tl as (v0 & vl & EVl). rewrite EVl in ET. apply require_Ok in ET. destruct ET as [_ ET]. injection ET as <-.
    split; [|reflexivity]. cbn [mrows]. rewrite EVl in HS2. apply Forall_inv in HS2. apply HS2. }
  exists Q, t, used. split; [exact E1'|]. split; [exact RQ|]. split; [exact St|]. split; [exact So|]. split.
  - intros i Hi. destruct (In1 i Hi) as [A B]. split; [exact A|]. destruct RQ as (_ & _ & O & D).
    destruct (mism i Q t A (conj O D)) as (th & Ath & Em). exists th. rewrite <- Em. auto.
  - intros Eq. assert (P0 : rot_block d (pick Ws 0)) by (apply (rot_of_pick d Rs Ws Hd HF HW); auto).
    assert (Eqi : forall i, (i < n)%nat -> beq d (pick Ws i) (pick Ws 0)) by (intros i Hi; apply Eq, nth_In; lia).
    set (P := mkMx d d (pick Ws 0)). assert (RP : rotation d P) by (destruct P0; repeat split; auto).
    assert (pos_sum : forall c (g : Mx R -> R), 0 < c -> (forall W, In W Ws -> 0 <= g W) ->
       nsumL (fun q : R * Mx R => fst q * g (snd q)) (combine (repeat c n) Ws) <= 0 -> forall i, (i < n)%nat -> g (pick Ws i) = 0).
    { intros c g Hc Hg L i Hi. assert (Hin : In (c, pick Ws i) (combine (repeat c n) Ws)).
      { replace (c, pick Ws i) with (nth i (combine (repeat c n) Ws) (c, mzero 0 0)).
        - apply nth_In. rewrite combine_length, repeat_length. lia.
        - rewrite combine_nth by (rewrite repeat_length; lia). rewrite nth_repeat_lt by lia. reflexivity. }
      assert (NN : forall q : R * Mx R, In q (combine (repeat c n) Ws) -> 0 <= fst q * g (snd q)).
      { intros [w W] Hq. pose proof (in_combine_l _ _ _ _ Hq) as Hl. apply in_combine_r in Hq. apply repeat_spec in Hl. cbn [fst snd]. subst w. apply Rmult_le_pos; [lra|auto]. }
      pose proof (rsumL_nonneg_zero _ _ NN) as ZZ. assert (S0 := Rle_antisym _ _ L (rsumL_nonneg _ _ NN)).
      specialize (ZZ S0 _ Hin). cbn [fst snd] in ZZ. apply Rmult_integral in ZZ. destruct ZZ; [lra|auto]. }
    assert (D0 : forall i, (i < n)%nat -> dist2 d d Q0 (pick Ws i) = 0).
    { apply (pos_sum (182 / 100) (fun W => dist2 d d Q0 W)); [lra| |].
      - intros W _. unfold dist2. repeat (apply rsum_nonneg; intros). apply Rle_0_sqr.
      - specialize (M0 P RP). unfold spread in M0. eapply Rle_trans; [exact M0|]. right. apply rsumL_zero. intros [w W] Hw. cbn [fst snd]. apply in_combine_r in Hw.
        replace (dist2 d d P W) with 0; [ring|]. symmetry. unfold dist2. apply rsum_zero'. intros i Hi. apply rsum_zero'. intros j Hj.
        rewrite (Eq W Hw i j) by lia. unfold P, sq. cbn [Num.mat]. ring. }
    assert (NT : ts <> []) by (destruct Tl as (v0 & vl & ->); discriminate).
    destruct (translation_average d ts tau NT HS2 HA) as (t0' & ET0' & St0 & MT). rewrite ET0 in ET0'. injection ET0' as <-. cbv zeta in MT.
    replace (length ts) with n in MT by (fold n in LT; lia). rewrite (in_force_self n tau 1) in MT by apply repeat_length.
    set (v := mkMx d 1 (fun i _ => pick Ws 0 i d)).
    assert (Tc : forall i, (i < n)%nat -> dist2 d 1 t0 (mkMx d 1 (fun b _ => pick Ws i b d)) = 0).
    { apply (pos_sum (1 / 100) (fun W => dist2 d 1 t0 (mkMx d 1 (fun b _ => W b d)))); [lra| |].
      - intros W _. unfold dist2. repeat (apply rsum_nonneg; intros). apply Rle_0_sqr.
      - destruct (MT v) as [L _].
        assert (SE : forall A : Mx R, spread d 1 tau ts A = nsumL (fun q : R * Mx R => fst q * dist2 d 1 A (mkMx d 1 (fun b _ => snd q b d))) (combine (repeat (1 / 100) n) Ws)).
        { intros A. apply spread_trans; auto. }
        rewrite <- SE. eapply Rle_trans; [exact L|]. rewrite SE. right. apply rsumL_zero. intros [w W] Hw. cbn [fst snd]. apply in_combine_r in Hw.
        replace (dist2 d 1 v _) with 0; [ring|]. symmetry. unfold dist2. apply rsum_zero'. intros i Hi. apply rsum_zero'. intros j Hj. cbn [Num.mat v].
        rewrite (Eq W Hw i d) by lia. unfold sq. ring. }
    assert (TV : forall i, (i < d)%nat -> t0 i O = pick Ws 0 i d).
    { intros i Hi. exact (dist2_zero d 1 t0 _ (Tc 0%nat Hn) i 0%nat Hi ltac:(lia)). }
    assert (QV : forall i j, (i < d)%nat -> (j < d)%nat -> Q0 i j = pick Ws 0 i j).
    { intros i j Hi Hj. exact (dist2_zero d d Q0 _ (D0 0%nat Hn) i j Hi Hj). }
    destruct Same as (-> & -> & ->); [|auto].
    intros i Hi. replace (pose_residual d kap tau Rs ts Q0 t0 i) with 0; [nra|]. symmetry.
    unfold pose_residual. assert (Z1 : rot_residual d kap Rs Q0 i = 0).
    { unfold rot_residual. destruct (F2_nth _ _ _ (mzero d d) (mzero 0 0) HF i Hi) as [_ F1].
      replace (dist2 d d Q0 (nth i Rs (mzero d d))) with 0; [ring|]. rewrite <- (D0 i Hi). unfold dist2. apply rsum_ext. intros b Hb. apply rsum_ext. intros c Hc.
      rewrite F1 by auto. reflexivity. }
    rewrite Z1. destruct (F2_nth _ _ _ (mzero d 1) (mzero 0 0) HG i) as [_ F1]; [lia|].
    replace (dist2 d 1 t0 (nth i ts (mzero d 1))) with 0; [ring|]. rewrite <- (Tc i Hi). unfold dist2. apply rsum_ext. intros b Hb. rewrite !rsum_S, !rsum_0. cbn [Num.mat].
    rewrite F1, Nat.add_0_r by lia. reflexivity.
Qed.
End One.

Section TopOne.
Context (x : Ext R) (id : N) (p : AgentParams R) (os : list (aop R)) (a : Agent R) (k : N) (dict : list (PoseID * Mx R)).
Context (Tn : PoseID -> nat -> nat -> R) (T : PoseArr R) (YL : Mx R) (Ws : list (Mx R)) (cbar : R).
Context (Ra : areach x id p os a).
Let d := p_d p.
Let ms := evidence id k dict (pg_shared (a_pg a)).
Context (Hd : (d = 2 \/ d = 3)%nat) (HT : a_TLocal a = Some T) (HY : a_YLift a = Some YL).
Context (Hh : hears (x_minv x) id k (p_r p) d (pg_shared (a_pg a)) YL T Tn dict).
Context (Hc : candidates id d Tn T ms Ws) (Hcb : 0 < cbar).
Context (Hsv : svd_sized (x_svd_full x) d) (Hav : averages_ok (x_svd_full x) d Ws) (Hdet : det_ok (x_det x) d) (Hdiv : div_ok (x_mudiv x)) (Hz : div_zero_big (x_mudiv x)).

Lemma one_stage : exists o, ag_oneStage x cbar a k dict = Ok o /\ (ms = [] -> o = None) /\
  (ms <> [] -> exists Q t used, rotation d Q /\ StronglySorted lt used /\
    (forall i, In i used -> (i < length ms)%nat /\ exists th, angle d Q (pick Ws i) th /\ mismatch d th t (pick Ws i) < cbar * cbar) /\
    match o with
    | None => (N.of_nat (length used) < p_mininl p)%N
    | Some P => (p_mininl p <= N.of_nat (length used))%N /\ rigid d P /\
        (forall i j, (i < d)%nat -> (j < d)%nat -> pa_X P i j = Q i j) /\ (forall i, (i < d)%nat -> pa_X P i d = t i O)
    end) /\
  forall W0, (1 <= length ms)%nat -> (p_mininl p <= N.of_nat (length ms))%N -> (forall W, In W Ws -> beq d (Num.mat W) W0) ->
    exists P, o = Some P /\ beq d (pa_X P) W0.
Proof.
  destruct (ag_dim x id p os a Ra) as [Dd Dp]. fold d in Dd.
  destruct (candidates_given x id p os a k dict Tn T YL Ra HT HY Hh Ws Hc) as (Rs & ts & EC & HW & H1 & H2).
  fold d in HW, H1, H2. pose proof (F2_length _ _ _ Hc) as Lm. pose proof (F2_length _ _ _ H1) as LR. pose proof (F2_length _ _ _ H2) as Lt.
  unfold ag_oneStage. rewrite EC. cbn [bind].
  destruct (list_eq_dec_nil Rs) as [E0|NE].
  { exists None. rewrite E0. split; [reflexivity|]. split; [auto|]. assert (Em : ms = []).
    { rewrite E0 in LR. cbn in LR. destruct ms; [reflexivity|cbn in Lm; lia]. }
    split; [intros Nm; contradiction|]. intros W0 L. rewrite Em in L. cbn in L. lia. }
  destruct (one_core (x_svd_full x) (x_det x) (x_mudiv x) d Rs ts Ws cbar Hd H1 H2 HW Hsv Hav Hdet Hdiv Hz NE Hcb)
    as (Q & t & used & EQ & RQ & St & So & In1 & Cons).
  assert (Ln : length Rs = length ms) by congruence.
  assert (MK : forall c m, map (fun o => c * o) (@ones R NumR m) = repeat c m).
  { intros c m. unfold ones. induction m as [|m IH]; [reflexivity|]. cbn [repeat map]. rewrite IH. f_equal. numr. ring. }
  assert (ER : robustSinglePoseAveraging (x_svd_full x) (x_det x) (x_mudiv x) Rs ts
     (map (fun o => (nofZ 182 / nofZ 100 * o)%num) (ones (length Rs))) (map (fun o => (nofZ 1 / nofZ 100 * o)%num) (ones (length Rs))) cbar = Ok (Q, t, used)).
  { rewrite <- EQ. f_equal; exact (MK _ _). }
  pose proof RQ as (Q1 & Q2 & Q3 & Q4).
  destruct (built d Q t (conj Q1 Q2) St) as (P & EP & WP & P1 & P2).
  exists (if (N.of_nat (length used) <? p_mininl p)%N then None else Some P). split.
  { destruct Rs as [|R0 Rl]; [congruence|]. cbv zeta. rewrite ER. cbn [bind]. rewrite Dp, Dd. destruct (_ <? _)%N; [reflexivity|exact EP]. }
  split; [intros Em; exfalso; apply NE; rewrite Em in Ln; destruct Rs; [reflexivity|discriminate]|]. split.
  - intros _. exists Q, t, used. split; [exact RQ|]. split; [exact So|]. split; [rewrite <- Ln; exact In1|].
    destruct (N.ltb_spec (N.of_nat (length used)) (p_mininl p)); [exact H|]. split; [exact H|]. split; [apply (built_rigid d Q); auto|]. auto.
  - intros W0 L0 Lmin HE. assert (P0 : forall i, (i < length ms)%nat -> beq d (pick Ws i) W0) by (intros i Hi; apply HE, nth_In; lia).
    destruct Cons as (Eu & C1 & C2). { intros W HWi. apply (beq_trans d _ W0); [auto|]. apply beq_sym. apply P0. lia. }
    rewrite Eu, seq_length, Ln. destruct (N.ltb_spec (N.of_nat (length ms)) (p_mininl p)); [lia|]. exists P. split; [reflexivity|].
    intros i j Hi Hj. rewrite <- (P0 0%nat) by lia. destruct (Nat.eq_dec j d) as [->|Nj]; [rewrite P2, C2 by lia; reflexivity|]. rewrite P1, C1 by lia. reflexivity.
Qed.
End TopOne.
