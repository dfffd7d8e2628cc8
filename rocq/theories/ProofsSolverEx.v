(** Concrete inputs for the examples of PropSolver. *)
From Coq Require Import List NArith ZArith Bool Arith Lia Reals Lra Psatz Sorted.
From Verif Require Import Base Num RSum Det ModelTypes ModelRobust ModelPoses ModelProblem ModelSolver
  SpecCost SpecRobust SpecSolver MatR ProofsPoseGraph ProofsRobust ProofsSolver ProofsGnc.
Import ListNotations.
Local Open Scope R_scope.

Ltac lit2 := intros b c Hb Hc; destruct b as [|[|b]]; destruct c as [|[|c]]; try lia; simpl; numr; try lra.

Definition ex_t : list (Mx R) := [mlit 2 1 [[0]; [0]]; mlit 2 1 [[2]; [4]]].
Lemma ex_t_ok : ex_t <> [] /\ Forall (sized 2 1) ex_t /\ Forall (fun y => 0 < y) [1; 3] /\
  exists t, singleTranslationAveraging ex_t [1; 3] = Ok t /\ t 0%nat 0%nat = 3 / 2 /\ t 1%nat 0%nat = 3.
Proof.
  split; [discriminate|]. split; [repeat constructor|]. split; [repeat constructor; lra|].
  eexists. split; [reflexivity|]. split; simpl; field.
Qed.

(** [[3,-4],[4,3]] = 5 times a rotation: positive determinants. *)
Definition exU : Mx R := mlit 2 2 [[3/5; -4/5]; [4/5; 3/5]].
Definition exI : Mx R := mlit 2 2 [[1; 0]; [0; 1]].
Definition exD : Mx R := mlit 2 2 [[1; 0]; [0; -1]].
Definition exRot90 : Mx R := mlit 2 2 [[0; -1]; [1; 0]].
Definition det2 (A : Mx R) : R := det (mrows A) A.
Lemma det2_ok : forall A : Mx R, mrows A = 2%nat -> mcols A = 2%nat -> det2 A = det 2 A.
Proof. intros A H _. unfold det2. rewrite H. reflexivity. Qed.

Lemma exU_orth : orthonormal 2 2 exU. Proof. lit2. Qed.
Lemma exI_orth : orthonormal 2 2 exI. Proof. lit2. Qed.
Lemma exD_orth : orthonormal 2 2 exD. Proof. lit2. Qed.

Lemma ex_svd_pos M : mx_eq M (mlit 2 2 [[3; -4]; [4; 3]]) -> svd_at (fun _ => (exU, exI)) 2 2 M.
Proof.
  intros (E1 & E2 & E3). unfold svd_at, is_svd. cbn [fst snd]. repeat (split; [reflexivity|]).
  split; [apply exU_orth|]. split; [apply exI_orth|]. exists (fun _ => 5). split; [intros; lra|]. split; [intros; lra|].
  intros b c Hb Hc. rewrite E3 by (rewrite ?E1, ?E2; auto). destruct b as [|[|b]]; destruct c as [|[|c]]; try lia; simpl; field.
Qed.
(** diag(2,-1): the determinants differ, the last column is negated. *)
Lemma ex_svd_neg M : mx_eq M (mlit 2 2 [[2; 0]; [0; -1]]) -> svd_at (fun _ => (exD, exI)) 2 2 M.
Proof.
  intros (E1 & E2 & E3). unfold svd_at, is_svd. cbn [fst snd]. repeat (split; [reflexivity|]).
  split; [apply exD_orth|]. split; [apply exI_orth|]. exists (fun l => if Nat.eqb l 0 then 2 else 1). split; [|split].
  - intros l _. destruct (Nat.eqb l 0); lra.
  - intros l l' Hl _. destruct (Nat.eqb_spec l 0), (Nat.eqb_spec l' 0); try lra. lia.
  - intros b c Hb Hc. rewrite E3 by (rewrite ?E1, ?E2; auto). destruct b as [|[|b]]; destruct c as [|[|c]]; try lia; simpl; lra.
Qed.

Lemma ex_neg_value : projectToRotationGroup (fun _ => (exD, exI)) det2 (mlit 2 2 [[2; 0]; [0; -1]]) 1%nat 1%nat = 1.
Proof.
  unfold projectToRotationGroup. numr. unfold det2. cbn [mrows exD exI mlit].
  assert (D1 : det 2 exD = -1) by (cbv [det sgn minor skip nsum]; simpl; ring).
  assert (D2 : det 2 exI = 1) by (cbv [det sgn minor skip nsum]; simpl; ring).
  rewrite D1, D2. destruct (Rlt_dec 0 (-1 * 1)); [lra|]. simpl. lra.
Qed.

Lemma ex_rot_sum M : mx_eq M (mkMx 2 2 (wsum (in_force 2 [3; 4] 1) [exI; exRot90])) -> mx_eq M (mlit 2 2 [[3; -4]; [4; 3]]).
Proof.
  intros (E1 & E2 & E3). split; [auto|]. split; [auto|]. intros b c Hb Hc. rewrite E3 by auto. rewrite E1 in Hb. rewrite E2 in Hc. simpl in Hb, Hc.
  unfold wsum, in_force. destruct b as [|[|b]]; destruct c as [|[|c]]; try lia; simpl; rewrite !rsumL_cons, rsumL_nil; simpl; lra.
Qed.

Lemma ex_rot_ok : Forall (sized 2 2) [exI; exRot90] /\
  (forall M, mx_eq M (mkMx 2 2 (wsum (in_force 2 [3; 4] 1) [exI; exRot90])) -> svd_at (fun _ => (exU, exI)) 2 2 M).
Proof. split; [repeat constructor|]. intros M HM. apply ex_svd_pos, ex_rot_sum, HM. Qed.

(** Thin decomposition of a 3 x 2 matrix. *)
Definition exM32 : Mx R := mlit 3 2 [[2; 0]; [0; 1]; [0; 0]].
Definition exE32 : Mx R := mlit 3 2 [[1; 0]; [0; 1]; [0; 0]].
Lemma ex_thin M : mx_eq M exM32 -> svd_at (fun _ => (exE32, exI)) 3 2 M.
Proof.
  intros (E1 & E2 & E3). unfold svd_at, is_svd. cbn [fst snd]. repeat (split; [reflexivity|]).
  split; [lit2|]. split; [apply exI_orth|]. exists (fun l => if Nat.eqb l 0 then 2 else 1). split; [|split].
  - intros l _. destruct (Nat.eqb l 0); lra.
  - intros l l' Hl _. destruct (Nat.eqb_spec l 0), (Nat.eqb_spec l' 0); try lra. lia.
  - intros b c Hb Hc. rewrite E3 by (rewrite ?E1, ?E2; auto). destruct b as [|[|[|b]]]; destruct c as [|[|c]]; try lia; simpl; lra.
Qed.
(** A trajectory of two poses, both with this rotation part. *)
Definition exM36 : Mx R := mlit 3 6 [[2; 0; 7; 2; 0; 1]; [0; 1; 8; 0; 1; 2]; [0; 0; 9; 0; 0; 3]].
Lemma ex_thin2 : forall i B, (i < 2)%nat -> mx_eq B (mblock exM36 0 (i * (2 + 1)) 3 2) -> svd_at (fun _ => (exE32, exI)) 3 2 B.
Proof.
  intros i B Hi (E1 & E2 & E3). apply ex_thin. split; [auto|]. split; [auto|]. intros b c Hb Hc. rewrite E3 by auto.
  rewrite E1 in Hb. rewrite E2 in Hc. simpl in Hb, Hc.
  destruct i as [|[|i]]; try lia; destruct b as [|[|[|b]]]; destruct c as [|[|c]]; try lia; reflexivity.
Qed.

(** Robust averaging: three candidates, the last one far off. *)
Definition ex_cand_R : list (Mx R) := [exI; exI; exI].
Definition ex_cand_t : list (Mx R) := [mlit 2 1 [[0]; [0]]; mlit 2 1 [[0]; [0]]; mlit 2 1 [[100]; [0]]].
Definition ex_svd : Mx R -> Mx R * Mx R := fun M => (mident (mrows M), mident (mcols M)).
Lemma ex_svd_sized : svd_sized ex_svd 2.
Proof. intros M [A B]. unfold ex_svd. simpl. rewrite A, B. split; split; reflexivity. Qed.
Lemma ex_div_ok : div_ok Rdiv. Proof. intros a b _. reflexivity. Qed.
Lemma ex_cand : ex_cand_R <> [] /\ length ex_cand_t = length ex_cand_R /\ Forall (sized 2 2) ex_cand_R /\ Forall (sized 2 1) ex_cand_t /\
  svd_sized ex_svd 2 /\ div_ok Rdiv.
Proof. split; [discriminate|]. split; [reflexivity|]. split; [repeat constructor|]. split; [repeat constructor|]. split; [apply ex_svd_sized|apply ex_div_ok]. Qed.

(** With threshold 0 the robust stage is skipped and everything is reported. *)
Lemma zero_threshold : exists Q t,
  robustSinglePoseAveraging ex_svd det2 Rdiv ex_cand_R ex_cand_t [] [] 0 = Ok (Q, t, [0; 1; 2]%nat) /\
  0 * 0 < pose_residual 2 (in_force 3 [] 10000) (in_force 3 [] 100) ex_cand_R ex_cand_t Q t 2.
Proof.
  set (average := fun ws => singlePoseAveraging ex_svd det2 ex_cand_R ex_cand_t (cwise (repeat (10000 * 1) 3) ws) (cwise (repeat (100 * 1) 3) ws)).
  assert (A : exists Q t, average (ones 3) = Ok (Q, t) /\ sized 2 2 Q /\ sized 2 1 t /\ t 0%nat 0%nat = 100 / 3 /\ t 1%nat 0%nat = 0).
  { destruct (rotation_average_total ex_svd det2 2 ex_cand_R (cwise (repeat (10000 * 1) 3) (ones 3)))
      as (Q & EQ & SQ); [discriminate|repeat constructor|apply ex_svd_sized|].
    exists Q. eexists. split.
    - unfold average, singlePoseAveraging. rewrite EQ. reflexivity.
    - split; auto. split; [split; reflexivity|]. split; simpl; field. }
  destruct A as (Q & t & EA & SQ & St & T0 & T1). exists Q, t. split.
  - unfold robustSinglePoseAveraging, robustPose_calls. change (length ex_cand_R) with 3%nat. change (length ex_cand_t) with 3%nat.
    cbn [Nat.ltb Nat.leb Nat.eqb check]. rewrite (check_rotations 2 ex_cand_R) by (repeat constructor). cbn [bind].
    change (or_default 3 (@nil R) (repeat (nofZ 10000 * n1)%num 3)) with (repeat (10000 * 1) 3).
    change (or_default 3 (@nil R) (repeat (nofZ 100 * n1)%num 3)) with (repeat (100 * 1) 3).
    fold average. unfold gnc_average. rewrite EA. cbn [bind].
    assert (ER : exists rs, pose_residuals (repeat (10000 * 1) 3) (repeat (100 * 1) 3) ex_cand_R ex_cand_t (Q, t) = Ok rs).
    { unfold pose_residuals. cbn [fst snd].
      assert (F1 : forallb (fun Ri => same_size Q Ri) ex_cand_R = true).
      { apply forallb_forall. intros M HM. apply same_size_sized. destruct SQ as [-> ->]. simpl in HM. intuition subst; split; reflexivity. }
      assert (F2 : forallb (fun Ri => same_size t Ri) ex_cand_t = true).
      { apply forallb_forall. intros M HM. apply same_size_sized. destruct St as [-> ->]. simpl in HM. intuition subst; split; reflexivity. }
      rewrite F1, F2. eexists. reflexivity. }
    destruct ER as [rs ->]. cbn [bind]. numr.
    set (x := 2 * maxCoeff rs - 0 * 0).
    assert (Z : 0 * 0 / x = 0) by (unfold Rdiv; ring). rewrite Z. unfold nmin, nlit. numr.
    destruct (Rlt_dec (1 / 100000) 0) as [F|_]; [lra|]. destruct (Rlt_dec 0 0) as [F|_]; [lra|]. cbn [bind].
    rewrite filter_all; [reflexivity|]. intros i Hi. apply in_seq in Hi. rewrite nth_ones by lia.
    numr. rewrite w_tol_R. destruct (Rlt_dec _ _) as [|F]; auto. exfalso. apply F. lra.
  - unfold pose_residual. pose proof (dist2_nonneg 2 2 Q (nth 2 ex_cand_R (mzero 2 2))) as D.
    unfold rot_residual, in_force. simpl nth. simpl (nth 2 _ _).
    assert (E : 1 < dist2 2 1 t (nth 2 ex_cand_t (mzero 2 1))).
    { unfold dist2, sq. simpl. rewrite T0, T1. numr. lra. }
    simpl nth in E, D. nra.
Qed.
