(** What the log files of an agent contain, over the reals. *)
From Coq Require Import List NArith ZArith Bool Arith Lia String Reals Lra.
From Verif Require Import Base SMap Num RSum Det ModelTypes ModelPoseGraph ModelProblem ModelRobust ModelPoses ModelSolver ModelAgent ModelIO ModelLog
  SpecPoseGraph SpecCost SpecSolver SpecAgent SpecFrames SpecIO SpecLog MatR ProofsPoseGraph ProofsPoses ProofsIO ProofsIO2 ProofsAgent ProofsAgent2 ProofsAgent3 ProofsFrames2 ProofsFrames3 ProofsLog ProofsCost4.
Import ListNotations.
Local Open Scope string_scope.
Local Open Scope res_scope.

Lemma dir_inj dir a b : dir ++ a = dir ++ b -> a = b.
Proof. induction dir as [|c dir IH]; cbn; [auto|]. intros [= E]. auto. Qed.
Lemma dir_neq dir a b : a <> b -> dir ++ a <> dir ++ b.
Proof. intros N E. apply N, (dir_inj dir), E. Qed.

Section P.
Context (F : Fmt R) (full : R -> string) (dir : string) (writable : string -> bool).

Lemma load_same fs fs' n lw : fs' n = fs n -> loadMeasurements F fs' n lw = loadMeasurements F fs n lw.
Proof. unfold loadMeasurements. intros ->. reflexivity. Qed.
Lemma traj_same fs fs' n : fs' (dir ++ n) = fs (dir ++ n) -> loadTrajectory F dir fs' n = loadTrajectory F dir fs n.
Proof. unfold loadTrajectory. intros ->. reflexivity. Qed.

Lemma reset_files x id p os a fs fs' a' : areach x id p os a -> p_log p = true -> lg_step F full dir writable x (fs, a) AReset = Ok (fs', a') ->
  exists fs1 fs2 o, logMeasurements F dir writable fs (measurements (a_pg a)) "measurements.csv" = Ok fs1 /\
    ag_getTrajectoryInGlobalFrame x a = Ok o /\
    match o with Some T => logTrajectory F dir writable fs1 (dimension a) (N.of_nat (num_poses a)) (pa_X T) "trajectory_optimized.csv" = Ok fs2 | None => fs2 = fs1 end /\
    fs' = writeMatrixToFile full writable fs2 (pa_X (a_X a)) (dir ++ "X.txt").
Proof.
  intros Ra Hl E. destruct (hist_all _ _ _ _ _ Ra) as (_ & Hp & _). unfold lg_step in E.
  apply bind_Ok in E. destruct E as (f & E1 & E). apply bind_Ok in E. destruct E as (a1 & _ & E). cbn [enters bind] in E. injection E as <- <-.
  unfold log_reset in E1. rewrite getTraj_end in E1. rewrite endLoop_form in E1. cbn [a_params sa_thread] in E1. rewrite Hp, Hl in E1. cbn [negb] in E1.
  apply bind_Ok in E1. destruct E1 as (f1 & F1 & E1). apply bind_Ok in E1. destruct E1 as (ot & Ft & E1). apply bind_Ok in E1. destruct E1 as (f2 & F2 & E1).
  injection E1 as <-. exists f1, f2, ot. split; [exact F1|]. split; [exact Ft|]. split; [|reflexivity]. destruct ot; [exact F2|congruence].
Qed.

Lemma xtxt_other fs M n : n <> dir ++ "X.txt" -> writeMatrixToFile full writable fs M (dir ++ "X.txt") n = fs n.
Proof. intros N. unfold writeMatrixToFile. destruct (negb _); [reflexivity|]. apply put_other; auto. Qed.
Lemma traj_other fs d k (T : Mx R) f fs' n : logTrajectory F dir writable fs d k T f = Ok fs' -> n <> dir ++ f -> fs' n = fs n.
Proof. intros E N. destruct (logTraj_frame _ _ _ _ _ _ _ _ _ n E) as [?|(? & _)]; tauto. Qed.

Theorem reset_measurements : forall x id p os a fs fs' a', areach x id p os a -> p_log p = true -> p_d p = 3%nat ->
  writable (dir ++ "measurements.csv") = true -> lg_step F full dir writable x (fs, a) AReset = Ok (fs', a') ->
  let ms := measurements (a_pg a) in
  (ms <> [] -> Forall small_ids ms -> Forall (fun m => rotation 3 (mR m)) ms -> Forall (fun m => Forall (fmt_at F (fun v => v)) (meas_nums m)) ms ->
     exists ms', loadMeasurements F fs' (dir ++ "measurements.csv") true = Ok ms' /\ Forall2 same_meas ms ms') /\
  (ms = [] -> fs' (dir ++ "measurements.csv") = fs (dir ++ "measurements.csv")).
Proof.
  intros x id p os a fs fs' a' Ra Hl Hd W E ms. destruct (reset_files _ _ _ _ _ _ _ _ Ra Hl E) as (fs1 & fs2 & o & E1 & _ & E2 & ->).
  assert (Q : writeMatrixToFile full writable fs2 (pa_X (a_X a)) (dir ++ "X.txt") (dir ++ "measurements.csv") = fs1 (dir ++ "measurements.csv")).
  { rewrite xtxt_other by (apply dir_neq; discriminate). destruct o as [T|]; [|congruence]. apply (traj_other _ _ _ _ _ _ _ E2). apply dir_neq; discriminate. }
  fold ms in E1. split.
  - intros NE SI RO FM. destruct (hist_all _ _ _ _ _ Ra) as (_ & Hp & _). pose proof (areach_inv _ _ _ _ _ Ra) as I.
    assert (M3 : Forall meas3 ms).
    { apply Forall_forall. intros m Hm. pose proof (wf_dims _ (iv_pg _ I) _ Hm) as D. apply dims_ok_shape in D. rewrite (iv_d _ I), Hp, Hd in D. exact D. }
    destruct (meas_exact F dir writable fs ms "measurements.csv" NE W M3 SI RO FM) as (f & ms' & Ef & El & R2). rewrite E1 in Ef. injection Ef as <-.
    exists ms'. rewrite (load_same fs1) by exact Q. auto.
  - intros Em. rewrite Q. rewrite Em in E1. cbn in E1. congruence.
Qed.

Lemma rot_mx d (M : Mx R) (A : nat -> nat -> R) : mrows M = d -> mcols M = d -> (forall i j, (i < d)%nat -> (j < d)%nat -> M i j = A i j) -> rot_block d A -> rotation d M.
Proof.
  intros H1 H2 E [O D]. split; auto. split; auto. split.
  - apply (orth_ext d d A); auto. intros. symmetry. auto.
  - rewrite <- D. apply det_ext. auto.
Qed.

Theorem reset_trajectory : forall x id p os a fs fs' a' Xa, areach x id p os a -> p_log p = true -> p_d p = 3%nat -> let r := p_r p in let n := num_poses a in
  (N.of_nat n < 1073741824)%N -> writable (dir ++ "trajectory_optimized.csv") = true ->
  a_state a = INITIALIZED -> a_anchor a = Some Xa -> det_ok (x_det x) 3 -> svds_ok x r 3 Xa (a_X a) n ->
  lg_step F full dir writable x (fs, a) AReset = Ok (fs', a') ->
  exists T, ag_getTrajectoryInGlobalFrame x a = Ok (Some T) /\
    ((forall i, (i < n)%nat -> Forall (fmt_at F (fun v => v)) (pose_nums (pa_X T) i)) ->
     exists T', loadTrajectory F dir fs' "trajectory_optimized.csv" = Ok (Some T') /\ mx_eq T' (pa_X T) /\
       forall i, (i < n)%nat -> let B := pblk (mkPA 3 3 n T') i in
         rounds 3 (seen r Xa (pblk (a_X a) i)) B /\ forall k, (k < 3)%nat -> B k 3%nat = (seen r Xa (pblk (a_X a) i) k 3%nat - seen r Xa Xa k 3%nat)%R).
Proof.
  intros x id p os a fs fs' a' Xa Ra Hl Hd r n Hn W Hs Ha Hdet Hsvd E. destruct (reset_files _ _ _ _ _ _ _ _ Ra Hl E) as (fs1 & fs2 & o & E1 & Eo & E2 & ->).
  rewrite <- Hd in Hdet. fold n in E2. pose proof (c31_global x id p os a Xa Ra Hs Ha Hdet) as G. cbv zeta in G. rewrite Hd in G. destruct (G Hsvd) as (T & ET & TT & V). clear G.
  exists T. split; [exact ET|]. intros FM. rewrite ET in Eo. injection Eo as <-. destruct TT as (T1 & T2 & T3 & T4 & T5). fold n in T3, T5, V.
  pose proof (areach_inv _ _ _ _ _ Ra) as I. destruct (hist_all _ _ _ _ _ Ra) as (_ & Hp & _).
  assert (Dm : dimension a = 3%nat) by (unfold dimension; rewrite (iv_d _ I), Hp; exact Hd). rewrite Dm in E2.
  assert (BR : forall i, (i < n)%nat -> rotation 3 (mblock (pa_X T) 0 (4 * i) 3 3)).
  { intros i Hi. destruct (V i Hi) as [[RB _] _]. apply (rot_mx 3 _ (pblk T i)); auto. intros k j Hk Hj. unfold pblk. rewrite T2. cbn [Num.mat mblock]. f_equal; lia. }
  destruct (traj_exact F dir writable fs1 (N.of_nat n) (pa_X T) "trajectory_optimized.csv" W Hn T4) as (f & T' & Ef & El & EQ); rewrite ?Nat2N.id; auto.
  rewrite E2 in Ef. injection Ef as <-. exists T'. split.
  - rewrite (traj_same fs2) by (apply xtxt_other, dir_neq; discriminate). exact El.
  - split; [exact EQ|]. destruct EQ as (Q1 & Q2 & Q3). intros i Hi. cbv zeta.
    assert (BE : forall k j, (k < 3)%nat -> (j < 4)%nat -> pblk (mkPA 3 3 n T') i k j = pblk T i k j).
    { intros k j Hk Hj. unfold pblk. cbn [pa_X pa_d]. rewrite T2. apply Q3; [rewrite Q1, T4; exact Hk|]. rewrite Q2, T5. nia. }
    destruct (V i Hi) as [[[RO RD] RM] VT]. split; [|intros k Hk; rewrite BE by lia; auto].
    assert (BB : forall k j, (k < 3)%nat -> (j < 3)%nat -> pblk T i k j = pblk (mkPA 3 3 n T') i k j) by (intros; symmetry; apply BE; lia).
    split; [split; [apply (orth_ext 3 3 (pblk T i)); auto|rewrite <- RD; apply det_ext; intros ? ? ? ?; symmetry; apply BB; auto]|].
    intros Q' HQ. apply Rle_trans with (2 := RM Q' HQ). right. unfold dist2. apply rsum_ext. intros k Hk. apply rsum_ext. intros j Hj. rewrite BB by auto. reflexivity.
Qed.

Theorem reset_no_trajectory : forall x id p os a fs fs' a', areach x id p os a -> lg_step F full dir writable x (fs, a) AReset = Ok (fs', a') ->
  a_state a <> INITIALIZED \/ a_anchor a = None \/ p_d p = 2%nat -> fs' (dir ++ "trajectory_optimized.csv") = fs (dir ++ "trajectory_optimized.csv").
Proof.
  intros x id p os a fs fs' a' Ra E Hc. pose proof (areach_inv _ _ _ _ _ Ra) as I. destruct (hist_all _ _ _ _ _ Ra) as (_ & Hp & _).
  destruct (lg_step_frame _ _ _ _ _ _ _ _ _ _ (dir ++ "trajectory_optimized.csv") E) as [?|(_ & _ & [(_ & D)|(H & _)])]; auto; [|destruct H].
  destruct D as [D|[D|(_ & D1 & D2 & D3)]]; [apply dir_inj in D; discriminate..|]. unfold dimension in D1. rewrite (iv_d _ I), Hp in D1. tauto.
Qed.

Theorem reset_iterate : forall x id p os a fs fs' a', areach x id p os a -> p_log p = true -> writable (dir ++ "X.txt") = true ->
  lg_step F full dir writable x (fs, a) AReset = Ok (fs', a') -> let X := pa_X (a_X a) in
  (forall v, has nl (full v) = false /\ full v <> "") -> mrows X <> 0%nat -> mcols X <> 0%nat ->
  exists c rows, fs' (dir ++ "X.txt") = Some c /\ lines c = map (String.concat ", ") rows /\ List.length rows = mrows X /\
    forall i l, nth_error rows i = Some l -> row_texts full X i l.
Proof.
  intros x id p os a fs fs' a' Ra Hl W E X Hf Hr Hc. destruct (reset_files _ _ _ _ _ _ _ _ Ra Hl E) as (fs1 & fs2 & o & _ & _ & _ & ->).
  destruct (matrix_lines full X Hf Hr Hc) as (rows & L1 & L2 & L3). exists (matrix_text full X), rows. split; [|auto].
  unfold writeMatrixToFile. rewrite W. cbn [negb]. apply put_same.
Qed.

Theorem reset_plane : forall x id p os a fs fs' a', areach x id p os a -> p_log p = true -> p_d p = 2%nat ->
  writable (dir ++ "measurements.csv") = true -> lg_step F full dir writable x (fs, a) AReset = Ok (fs', a') ->
  measurements (a_pg a) <> [] -> fs' (dir ++ "measurements.csv") = Some "".
Proof.
  intros x id p os a fs fs' a' Ra Hl Hd W E NE. destruct (reset_files _ _ _ _ _ _ _ _ Ra Hl E) as (fs1 & fs2 & o & E1 & _ & E2 & ->).
  rewrite xtxt_other by (apply dir_neq; discriminate).
  transitivity (fs1 (dir ++ "measurements.csv")). { destruct o as [T|]; [|congruence]. apply (traj_other _ _ _ _ _ _ _ E2). apply dir_neq; discriminate. }
  pose proof (areach_inv _ _ _ _ _ Ra) as I. destruct (hist_all _ _ _ _ _ Ra) as (_ & Hp & _).
  destruct (measurements (a_pg a)) as [|m ms] eqn:Em; [congruence|].
  assert (D : shape_ok 2 m). { pose proof (wf_dims _ (iv_pg _ I) m ltac:(rewrite Em; left; reflexivity)) as D. apply dims_ok_shape in D. rewrite (iv_d _ I), Hp, Hd in D. exact D. }
  destruct (meas_2d F dir writable fs m ms "measurements.csv" true W) as (f & Ef & Q & _); [apply D|]. rewrite E1 in Ef. injection Ef as <-. exact Q.
Qed.

(** ** Entering the global frame *)
Lemma quat_ext (A B : Mx R) : (forall i j, (i < 3)%nat -> (j < 3)%nat -> A i j = B i j) -> quat_of A = quat_of B.
Proof.
  intros E. unfold quat_of. rewrite !E by lia.
  assert (QB : forall i j k, (i < 3)%nat -> (j < 3)%nat -> (k < 3)%nat -> q_big A i j k = q_big B i j k) by (intros; unfold q_big; rewrite !E by lia; reflexivity).
  assert (QT : q_trace A = q_trace B) by (unfold q_trace; rewrite !E by lia; reflexivity). rewrite QT, !QB by lia.
  destruct (nltb (B 0%nat 0%nat) (B 1%nat 1%nat)); rewrite !E by lia; reflexivity.
Qed.

Theorem enter_contents : forall x id p os a o fs fs' a' YL (T : Mx R), areach x id p os a -> aop_ok o -> p_log p = true -> p_d p = 3%nat ->
  let n := num_poses a' in
  (N.of_nat n < 1073741824)%N -> writable (dir ++ "trajectory_initial.csv") = true ->
  lg_step F full dir writable x (fs, a) o = Ok (fs', a') -> entered a o a' ->
  a_YLift a' = Some YL -> orthonormal (p_r p) 3 YL ->
  mrows T = 3%nat -> mcols T = (4 * n)%nat -> mx_eq (mmul YL T) (pa_X (a_X a')) ->
  (forall i, (i < n)%nat -> rotation 3 (mblock T 0 (4 * i) 3 3)) -> (forall i, (i < n)%nat -> Forall (fmt_at F (fun v => v)) (pose_nums T i)) ->
  exists T', loadTrajectory F dir fs' "trajectory_initial.csv" = Ok (Some T') /\ mx_eq T' T.
Proof.
  intros x id p os a o fs fs' a' YL T Ra Ho Hl Hd n Hn W E En EY OY T1 T2 EX RO FM.
  pose proof (lg_step_agent _ _ _ _ _ _ _ _ _ _ E) as Ea. pose proof (areach_inv _ _ _ _ _ Ra) as I. pose proof (step_inv _ _ _ _ I Ho Ea) as I'.
  destruct (hist_all _ _ _ _ _ Ra) as (_ & Hp & _). pose proof (step_params _ _ _ _ I Ho Ea) as Hp'. rewrite Hp in Hp'.
  unfold lg_step in E. apply bind_Ok in E. destruct E as (fs1 & E1 & E). rewrite Ea in E. cbn [bind] in E.
  destruct (enters_spec dir writable x a o a' Ea) as (e & Ee & He). rewrite Ee in E. cbn [bind] in E. destruct e as [TW|]; [|tauto].
  apply bind_Ok in E. destruct E as (fs2 & E2 & E). injection E as <-. destruct He as (_ & (YL' & Tl & Tw & EY' & ETl & ETw & _ & EXw) & _).
  rewrite EY in EY'. injection EY' as <-. unfold log_enter in E2. rewrite Hp', Hl in E2. cbn [negb] in E2. rewrite ETl in E2. cbn [opt_value bind] in E2. rewrite ETw in E2. cbn [bind] in E2.
  destruct (iv_T _ I' _ ETl) as [_ A]. apply (transform_all_arr _ _ _ _ _ _ _ A) in ETw. rewrite Hp', Hd in ETw. destruct ETw as (A1 & A2 & A3 & A4 & A5).
  destruct (iv_Y _ I' _ EY) as [Y1 Y2]. rewrite Hp' in Y1, Y2. rewrite Hd in Y2. unfold dimension in E2. rewrite (iv_d _ I'), Hp', Hd in E2. fold n in E2, A3, A5.
  assert (Q : mx_eq (pa_X Tw) T).
  { pose proof (ProofsCost4.unlift YL T ltac:(rewrite Y1, Y2; exact OY) ltac:(congruence)) as U1.
    pose proof (ProofsCost4.unlift YL (pa_X Tw) ltac:(rewrite Y1, Y2; exact OY) ltac:(congruence)) as U2.
    destruct U1 as (_ & _ & U1). destruct U2 as (_ & _ & U2). rewrite EXw in EX. destruct EX as (_ & _ & EX). cbn [mrows mcols mmul mtr] in *.
    split; [congruence|]. split; [rewrite A5, T2; lia|]. intros i j Hi Hj. rewrite <- U1, <- U2 by (rewrite ?Y2, ?T2; lia).
    cbn [Num.mat mmul mtr mcols]. apply rsum_ext. intros k Hk. f_equal. symmetry. apply (EX k j); [exact Hk|]. rewrite T2. lia. }
  destruct Q as (Q1 & Q2 & Q3).
  destruct (traj_exact F dir writable fs1 (N.of_nat n) (pa_X Tw) "trajectory_initial.csv" W Hn A4) as (f & T' & Ef & El & EQ); rewrite ?Nat2N.id; auto.
  - intros i Hi. destruct (RO i Hi) as (_ & _ & RR). apply (rot_mx 3 _ (mblock T 0 (4 * i) 3 3)); auto. intros k j Hk Hj. cbn [Num.mat mblock].
    apply Q3; [rewrite A4; lia|rewrite A5; nia].
  - intros i Hi. assert (PN : pose_nums (pa_X Tw) i = pose_nums T i).
    { unfold pose_nums. rewrite (quat_ext (mblock (pa_X Tw) 0 (i * 4) 3 3) (mblock T 0 (i * 4) 3 3)).
      - rewrite !Q3 by (rewrite ?A4, ?A5; nia). reflexivity.
      - intros k j Hk Hj. cbn [Num.mat mblock]. apply Q3; [rewrite A4; lia|rewrite A5; nia]. }
    rewrite PN. auto.
  - rewrite E2 in Ef. injection Ef as <-. exists T'. split; [exact El|]. destruct EQ as (B1 & B2 & B3). split; [congruence|]. split; [congruence|].
    intros i j Hi Hj. rewrite B3 by auto. apply Q3; congruence.
Qed.
End P.
