(** Concrete files for the examples of PropIO. *)
From Coq Require Import List NArith ZArith Bool Arith Lia Ascii String Permutation QArith Reals Lra.
From Verif Require Import Base SMap Num Det ModelTypes ModelIO SpecCost SpecSolver SpecIO SpecIO2 ProofsPoseGraph ProofsIO ProofsQuat ProofsIO2 ProofsIO3 ProofsAgentEx.
Import ListNotations.
Local Open Scope string_scope.
Local Open Scope list_scope.

(** Whole numbers with an optional sign. *)
Fixpoint take_digits (s : string) (acc : N) : N * string :=
  match s with
  | EmptyString => (acc, s)
  | String c s' => match digit_of c with Some k => take_digits s' (10 * acc + k)%N | None => (acc, s) end
  end.
Definition scan_nat (s : string) : bool * N * string :=
  match s with
  | String c _ => match digit_of c with Some _ => let '(n, r) := take_digits s 0 in (true, n, r) | None => (false, 0%N, s) end
  | EmptyString => (false, 0%N, s) end.
Definition scan_num (s : string) : bool * Q * string :=
  match s with
  | String "-" s' => let '(b, n, r) := scan_nat s' in (b, inject_Z (- Z.of_N n), r)
  | _ => let '(b, n, r) := scan_nat s in (b, inject_Z (Z.of_N n), r)
  end.
Definition qscan : G2oExt Q := mkG2o scan_nat scan_num (fun _ => 1%Q) (fun _ => 0%Q).
Definition qfmt : Fmt Q := mkFmt
  (fun x => ((if (Qnum x <? 0)%Z then "-" else "") ++ show_N (Z.to_N (Z.abs (Qnum x)) / Npos (Qden x)))%string)
  (fun s => let '(b, x, _) := scan_num s in if b then Ok x else Abort).

Definition file (ls : list string) : FS := fun _ => Some (text ls).
Definition e3 : string := "EDGE_SE3:QUAT 0 1 1 2 3 0 0 0 1 4 0 0 0 0 0 4 0 0 0 0 4 0 0 0 6 0 0 6 0 6".
Definition e2 : string := "EDGE_SE2 1 7 -1 5 0 2 0 0 2 0 9".
Definition v3 : string := "VERTEX_SE3:QUAT 0 0 0 0 0 0 0 1".

Definition brief (m : Meas Q) : N * N * bool * Q * Q * list (list Q) * list (list Q) :=
  (mp1 m, mp2 m, mfixed m, mkappa m, mtau m, dump (mR m), dump (mt m)).
Definition read_brief (ls : list string) := match read_g2o qscan (file ls) "f" with Ok (ms, n) => Some (map brief ms, n) | _ => None end.
Definition m3 : N * N * bool * Q * Q * list (list Q) * list (list Q) := (0%N, 1%N, true, 3%Q, 4%Q, [[1; 0; 0]; [0; 1; 0]; [0; 0; 1]]%Q, [[1]; [2]; [3]]%Q).
Definition m2 : N * N * bool * Q * Q * list (list Q) * list (list Q) := (1%N, 7%N, false, 9%Q, 2%Q, [[1; 0]; [0; 1]]%Q, [[-1]; [5]]%Q).
Lemma ex_read : read_brief [v3; e3; v3; e2] = Some ([m3; m2], 8%N) /\ read_brief [v3; e3; ""; e2; " "; v3] = Some ([m3; m3; m2; m2], 8%N).
Proof. vm_compute. repeat split. Qed.

Ltac words := split; [eexists; eexists; split; reflexivity|split; [reflexivity|intros rest [->|[r ->]]; reflexivity]].
Definition items : list (item (S := Q)) :=
  [IVertex; IEdge3 0 1 [1; 2; 3; 0; 0; 0; 1; 4; 0; 0; 0; 0; 0; 4; 0; 0; 0; 0; 4; 0; 0; 0; 6; 0; 0; 6; 0; 6]%Q; IVertex; IEdge2 1 7 [-1; 5; 0; 2; 0; 0; 2; 0; 9]%Q].
Lemma ex_items : Forall2 (item_line qscan) items [v3; e3; v3; e2] /\ Forall small_pose (flat_map item_ids items).
Proof.
  split; [|repeat constructor; cbv; reflexivity].
  repeat apply Forall2_cons; try apply Forall2_nil.
  - constructor; reflexivity.
  - change e3 with (String.concat " " ("EDGE_SE3:QUAT" :: "0" :: "1" :: ["1"; "2"; "3"; "0"; "0"; "0"; "1"; "4"; "0"; "0"; "0"; "0"; "0"; "4"; "0"; "0"; "0"; "0"; "4"; "0"; "0"; "0"; "6"; "0"; "0"; "6"; "0"; "6"])).
    constructor; [words|words| |reflexivity]. repeat apply Forall2_cons; try apply Forall2_nil; words.
  - constructor; reflexivity.
  - change e2 with (String.concat " " ("EDGE_SE2" :: "1" :: "7" :: ["-1"; "5"; "0"; "2"; "0"; "0"; "2"; "0"; "9"])).
    constructor; [words|words| |reflexivity]. repeat apply Forall2_cons; try apply Forall2_nil; words.
Qed.

(** A line cut short takes its missing numbers from the lines before. *)
Lemma short_line : exists i j, read_brief [e3; "EDGE_SE2 4 5"] = None /\
  read_brief [e2; "EDGE_SE2 4 5"] = Some ([m2; (i, j, true, 9%Q, 2%Q, [[1; 0]; [0; 1]]%Q, [[-1]; [5]]%Q)], 8%N) /\ i = 4%N /\ j = 5%N.
Proof. exists 4%N, 5%N. vm_compute. repeat split. Qed.

(** Pose ids above 2^53 lose their last bit in the count. *)
Lemma large_count : exists ms, read_g2o qscan (file ["EDGE_SE2 0 9007199254740993 0 0 0 1 0 0 1 0 1"]) "f" = Ok (ms, 9007199254740993%N) /\
  exists m, In m ms /\ mp2 m = 9007199254740993%N.
Proof.
  assert (E : match read_g2o qscan (file ["EDGE_SE2 0 9007199254740993 0 0 0 1 0 0 1 0 1"]) "f" with
     | Ok (ms, n) => n = 9007199254740993%N /\ map (fun m => mp2 m) ms = [9007199254740993%N] | _ => False end) by (vm_compute; repeat split).
  destruct (read_g2o qscan (file ["EDGE_SE2 0 9007199254740993 0 0 0 1 0 0 1 0 1"]) "f") as [[ms n]| |]; try contradiction.
  destruct E as [-> E]. exists ms. split; [reflexivity|]. destruct ms as [|m ms]; [discriminate|]. exists m. split; [left; auto|]. injection E as E _. exact E.
Qed.
(** No edges at all: one pose. *)
Lemma empty_count : read_g2o qscan (fun _ => None) "f" = Ok ([], 1%N).
Proof. reflexivity. Qed.

Lemma nonunit_refuted : ~ rotation 3 (q_rot (mkQuat 1 0 0 1)%R).
Proof.
  intros (_ & _ & O & _). pose proof (O 1%nat 1%nat ltac:(lia) ltac:(lia)) as E. cbn in E. lra.
Qed.

(** ** Logs *)
Definition lm (id : N) (w : Q) : Meas Q := mkMeas 0 1 id 3 (mident 3) (mlit 3 1 [[4]; [-5]; [6]]%Q) 7%Q 8%Q true w.
Definition load_brief (fs : FS) (name : string) (lw : bool) :=
  match loadMeasurements qfmt fs name lw with Ok ms => Some (map (fun m => (mr1 m, mp1 m, mr2 m, mp2 m, brief m, mweight m)) ms) | _ => None end.
Definition log_then (dir : string) ms (name : string) (lw : bool) :=
  match logMeasurements qfmt dir (fun _ => true) (fun _ => None) ms "m.csv" with Ok fs => load_brief fs name lw | _ => None end.
Lemma ex_log : log_then "d/" [lm 2 1; lm 9 0] "d/m.csv" true =
   Some [(0%N, 2%N, 1%N, 3%N, (2%N, 3%N, true, 7%Q, 8%Q, [[1; 0; 0]; [0; 1; 0]; [0; 0; 1]]%Q, [[4]; [-5]; [6]]%Q), 1%Q);
         (0%N, 9%N, 1%N, 3%N, (9%N, 3%N, true, 7%Q, 8%Q, [[1; 0; 0]; [0; 1; 0]; [0; 0; 1]]%Q, [[4]; [-5]; [6]]%Q), 0%Q)] /\
   Forall meas3 [lm 2 1; lm 9 0] /\ Forall small_ids [lm 2 1; lm 9 0] /\
   Forall (fun m => Forall (fmt_at qfmt (fun x => x)) (meas_nums m)) [lm 2 1; lm 9 0].
Proof. split; [vm_compute; reflexivity|]. split; [repeat constructor|]. split; [repeat constructor|]. repeat constructor. Qed.

(** The directory is used for writing only. *)
Lemma directory_lost : exists ms fs', ms <> [] /\ logMeasurements qfmt "d/" (fun _ => true) (fun _ => None) ms "m.csv" = Ok fs' /\
  Forall meas3 ms /\ Forall small_ids ms /\ loadMeasurements qfmt fs' "m.csv" true = Ok [].
Proof.
  destruct (meas_roundtrip qfmt (fun x => x) "d/" (fun _ => true) (fun _ => None) [lm 2 1; lm 9 0] "m.csv" true) as (fs' & E & O & _);
    [discriminate|reflexivity|apply ex_log|apply ex_log|apply ex_log|].
  exists [lm 2 1; lm 9 0], fs'. split; [discriminate|]. split; [exact E|]. split; [apply ex_log|]. split; [apply ex_log|].
  apply meas_missing. rewrite O; [reflexivity|discriminate].
Qed.
(** Ids of 2^31 and more are written but cannot be read. *)
Lemma big_id_lost : exists fs', logMeasurements qfmt "" (fun _ => true) (fun _ => None) [lm 2147483648 1] "m.csv" = Ok fs' /\
  loadMeasurements qfmt fs' "m.csv" true = Abort.
Proof.
  assert (E : match logMeasurements qfmt "" (fun _ => true) (fun _ => None) [lm 2147483648 1] "m.csv" with Ok fs' => loadMeasurements qfmt fs' "m.csv" true = Abort | _ => False end)
    by (vm_compute; reflexivity).
  destruct (logMeasurements qfmt "" (fun _ => true) (fun _ => None) [lm 2147483648 1] "m.csv") as [fs'| |]; try contradiction. eauto.
Qed.

(** A trajectory of two poses. *)
Definition traj2 : Mx Q := mlit 3 8 [[1; 0; 0; 4; 1; 0; 0; 7]; [0; 1; 0; 5; 0; 1; 0; 8]; [0; 0; 1; 6; 0; 0; 1; -9]]%Q.
Definition traj_then (ls : list string) := match loadTrajectory qfmt "d/" (file ls) "t.csv" with Ok (Some T) => Some (dump T) | _ => None end.
Lemma ex_traj : (match logTrajectory qfmt "d/" (fun _ => true) (fun _ => None) 3 2 traj2 "t.csv" with
   | Ok fs => match loadTrajectory qfmt "d/" fs "t.csv" with Ok (Some T) => Some (dump T) | _ => None end | _ => None end) = Some (dump traj2) /\
  (forall i, (i < 2)%nat -> Forall (fmt_at qfmt (fun x => x)) (pose_nums traj2 i)) /\
  traj_then ["h"; "1,0,0,0,1,1,2,3"; "0,0,0,0,1,4,5,6"] = Some [[1; 0; 0; 4; 1; 0; 0; 1]; [0; 1; 0; 5; 0; 1; 0; 2]; [0; 0; 1; 6; 0; 0; 1; 3]]%Q /\
  traj_then ["h"; "0,0,0,0,1,1,2,3"; "0,0,0,0,1,4,5,6"] = None /\ traj_then ["h"; "0,0,0,0,1,1,2,3"; "2,0,0,0,1,4,5,6"] = None.
Proof.
  split; [vm_compute; reflexivity|]. split; [|vm_compute; repeat split].
  intros i Hi. destruct i as [|[|i]]; [repeat constructor..|lia].
Qed.
(** A row cut short is filled with its last field. *)
Lemma short_row : traj_then ["h"; "0,0,0,0,5"] = Some [[1; 0; 0; 5]; [0; 1; 0; 5]; [0; 0; 1; 5]]%Q.
Proof. vm_compute. reflexivity. Qed.

(** ** Over the reals: the rotation that cycles the axes *)
Local Open Scope R_scope.
Definition cyc : Mx R := mlit 3 3 [[0; 0; 1]; [1; 0; 0]; [0; 1; 0]].
Lemma cyc_rot : rotation 3 cyc.
Proof.
  split; [reflexivity|]. split; [reflexivity|]. split.
  - intros b c Hb Hc. assert (Cb : (b = 0 \/ b = 1 \/ b = 2)%nat) by lia. assert (Cc : (c = 0 \/ c = 1 \/ c = 2)%nat) by lia.
    destruct Cb as [->|[->| ->]], Cc as [->|[->| ->]]; cbn; lra.
  - unfold det, minor, skip, sgn. cbn. lra.
Qed.
Lemma cyc_quat : quat_of cyc = mkQuat (1 / 2) (1 / 2) (1 / 2) (1 / 2).
Proof.
  unfold quat_of, q_trace, q_big, cyc, mlit. cbn [Num.mat nth nltb n0 n1 nadd nsub nmul ndiv nsqrt NumR]. rewrite half_R.
  destruct (Rlt_dec 0 (0 + 0 + 0)); [lra|]. destruct (Rlt_dec 0 0); [lra|]. cbn [nth]. destruct (Rlt_dec 0 0); [lra|].
  replace (0 - 0 - 0 + 1) with 1 by ring. rewrite sqrt_1. f_equal; field.
Qed.
Definition rfmt : Fmt R := mkFmt
  (fun x => if Req_EM_T x 0 then "0" else if Req_EM_T x 1 then "1" else if Req_EM_T x (1 / 2) then "0.5" else "?")%string
  (fun s => if (s =? "0")%string then Ok 0 else if (s =? "1")%string then Ok 1 else if (s =? "0.5")%string then Ok (1 / 2) else Abort).
Lemma rfmt_0 : fmt_at rfmt (fun x => x) 0.
Proof. unfold fmt_at, plain. cbn [rfmt f_show f_stod]. destruct (Req_EM_T 0 0); [|lra]. repeat split. Qed.
Lemma rfmt_1 : fmt_at rfmt (fun x => x) 1.
Proof. unfold fmt_at, plain. cbn [rfmt f_show f_stod]. destruct (Req_EM_T 1 0); [lra|]. destruct (Req_EM_T 1 1); [|lra]. repeat split. Qed.
Lemma rfmt_h : fmt_at rfmt (fun x => x) (1 / 2).
Proof. unfold fmt_at, plain. cbn [rfmt f_show f_stod]. destruct (Req_EM_T (1 / 2) 0); [lra|]. destruct (Req_EM_T (1 / 2) 1); [lra|].
  destruct (Req_EM_T (1 / 2) (1 / 2)); [|lra]. repeat split. Qed.
Definition rlm : Meas R := mkMeas 0 1 2 3 cyc (mlit 3 1 [[1]; [0]; [1 / 2]]) 1 (1 / 2) false 1.
Lemma ex_exact : Forall meas3 [rlm] /\ Forall small_ids [rlm] /\ Forall (fun m => rotation 3 (mR m)) [rlm] /\
  Forall (fun m => Forall (fmt_at rfmt (fun x => x)) (meas_nums m)) [rlm].
Proof.
  split; [repeat constructor|]. split; [repeat constructor|]. split; [constructor; [exact cyc_rot|constructor]|]. constructor; [|constructor].
  unfold meas_nums. cbn [mR rlm mt mkappa mtau mweight]. rewrite cyc_quat. cbn [qx qy qz qw mlit Num.mat nth].
  repeat apply Forall_cons; try apply Forall_nil; first [apply rfmt_0|apply rfmt_1|apply rfmt_h].
Qed.
Definition rtraj : Mx R := mlit 3 4 [[0; 0; 1; 1]; [1; 0; 0; 0]; [0; 1; 0; 1 / 2]].
Lemma block_quat : quat_of (mblock rtraj 0 (0 * 4) 3 3) = mkQuat (1 / 2) (1 / 2) (1 / 2) (1 / 2).
Proof.
  unfold quat_of, q_trace, q_big, rtraj, mblock, mlit. cbn [Num.mat nth Nat.mul Nat.add nltb n0 n1 nadd nsub nmul ndiv nsqrt NumR]. rewrite half_R.
  destruct (Rlt_dec 0 (0 + 0 + 0)); [lra|]. destruct (Rlt_dec 0 0); [lra|]. cbn [nth Nat.add]. destruct (Rlt_dec 0 0); [lra|].
  cbn [nth Nat.add]. replace (0 - 0 - 0 + 1) with 1 by ring. rewrite sqrt_1. f_equal; field.
Qed.
Lemma ex_traj_exact : rotation 3 (mblock rtraj 0 (4 * 0) 3 3) /\ Forall (fmt_at rfmt (fun x => x)) (pose_nums rtraj 0).
Proof.
  split.
  - destruct cyc_rot as (_ & _ & O & D). split; [reflexivity|]. split; [reflexivity|]. split.
    + intros b c Hb Hc. rewrite <- (O b c Hb Hc). assert (Cb : (b = 0 \/ b = 1 \/ b = 2)%nat) by lia. assert (Cc : (c = 0 \/ c = 1 \/ c = 2)%nat) by lia.
      destruct Cb as [->|[->| ->]], Cc as [->|[->| ->]]; reflexivity.
    + rewrite <- D. reflexivity.
  - unfold pose_nums. rewrite block_quat. cbn [qx qy qz qw rtraj mlit Num.mat nth Nat.mul Nat.add].
    repeat apply Forall_cons; try apply Forall_nil; first [apply rfmt_0|apply rfmt_1|apply rfmt_h].
Qed.

(** A row with the pose of the identity, all other texts 0. *)
Definition row0 (c : string) : string := if String.eqb c "qw" then "1" else "0".
Lemma ex_row0 : meas_readable rfmt row0 /\ traj_readable rfmt row0 0 /\ Permutation [0%N] (ids_upto 1).
Proof.
  assert (Z : is_number rfmt "0") by (split; [repeat split|exists 0; reflexivity]).
  assert (O : is_number rfmt "1") by (split; [repeat split|exists 1; reflexivity]).
  assert (A : forall c, is_number rfmt (row0 c)) by (intros c; unfold row0; destruct (String.eqb c "qw"); assumption).
  assert (I : is_id "0" 0) by (split; [reflexivity|unfold small_id; lia]).
  split; [split; [|split; [intros c _; apply A|left; reflexivity]]|split; [split; [exact I|intros c _; apply A]|apply Permutation_refl]].
  intros c Hc. exists 0%N. cbn [In] in Hc. destruct Hc as [<-|[<-|[<-|[<-|[]]]]]; exact I.
Qed.
