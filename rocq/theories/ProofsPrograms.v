(** The single-robot programs. *)
From Coq Require Import List NArith ZArith Bool Arith Lia Lra Reals Permutation.
From Verif Require Import Base SMap Num RSum Det MatR ModelTypes ModelPoseGraph ModelProblem ModelRobust ModelPoses ModelSolver ModelChordal ModelOptimizer ModelInit ModelAgent ModelExample ModelExampleRun ModelPrograms
  SpecPoseGraph SpecPGHist SpecCost SpecSolver SpecOptimizer SpecInit SpecAgent SpecFrames SpecExample SpecRun SpecRobust SpecRobustPgo ProofsPoseGraph ProofsPGHist ProofsPGMain ProofsPGData ProofsCost ProofsCost2 ProofsCost4 ProofsPoses ProofsOdom
  ProofsExample ProofsExample2 ProofsAgent ProofsInit ProofsInit2 ProofsInit3 ProofsInit4 ProofsChordal ProofsRun ProofsRun4 ProofsRun5 ProofsRun6 ProofsRun7 ProofsRun8 ProofsGnc ProofsRobustPgo ProofsRobustPgo2.
Import ListNotations.
Local Open Scope res_scope.
Local Open Scope R_scope.

(** Odometry first. *)
Definition sorted_ds (ds : list (Meas R)) : list (Meas R) := filter next_pose ds ++ filter (fun e => negb (next_pose e)) ds.
Lemma sorted_perm ds : Permutation (sorted_ds ds) ds.
Proof. apply filter_split. intros; reflexivity. Qed.

Lemma chordal_total qr svd dt d n ms : (d = 2 \/ d = 3)%nat -> pose_count ms (N.of_nat n) -> (N.of_nat n * N.of_nat (d * d) < two32)%N ->
  (forall m, In m ms -> meas_sized d m) -> SpecSolver.svd_sized svd d ->
  exists T, chordalInitialization qr svd dt ms = Ok T /\ traj d n T /\
    forall a c, (a < d)%nat -> (c < d)%nat -> pblk T 0 a c = if Nat.eqb a c then 1 else 0.
Proof.
  intros Hd Hp Hn Hs Hv. pose proof (ms_nonempty _ _ Hp) as Hne.
  destruct (b_defined ms) as (B1 & B2 & B3 & EB).
  { apply forallb_forall. intros m Hm. rewrite (edges_dim_sized d ms Hne Hs). destruct (Hs m Hm) as [[A B] [C D]]. unfold meas_has_dim. rewrite A, B, C, D, !Nat.eqb_refl. reflexivity. }
  destruct (chordal_run qr svd dt d n ms B1 B2 B3 Hd Hne Hs Hn Hp EB) as (Rc & T & E & TT & _ & V & _ & I & _).
  { intros i M _ HM _. apply proj_sized; auto. }
  pose proof (count_pos n ms Hp) as Np.
  exists T. split; [exact E|]. split; [exact TT|]. intros a c Ha Hc. rewrite V by (auto; lia). apply I; auto.
Qed.

Lemma perm_single k d n ms ms' : Permutation ms' ms -> single_problem k d n ms -> single_problem k d n ms'.
Proof.
  intros P (Hd & [A (m & I & B)] & Hn & Hk & Hm). split; [exact Hd|]. split; [split|split; [exact Hn|split; [exact Hk|]]].
  - intros e He. apply A, (Permutation_in _ P He).
  - exists m. split; auto. apply (Permutation_in _ (Permutation_sym P) I).
  - intros e He. apply Hm, (Permutation_in _ P He).
Qed.
Lemma perm_cost d ms ms' X : Permutation ms' ms -> mx_cost d ms' X = mx_cost d ms X.
Proof. apply rsumL_perm. Qed.
Lemma perm_reached ms ms' i : Permutation ms' ms -> reached ms i -> reached ms' i.
Proof.
  intros P. apply Permutation_sym in P. induction 1 as [|m Hm _ IH|m Hm _ IH]; [constructor|apply reached_fwd|apply reached_bwd]; eauto using Permutation_in.
Qed.

(** The cost printed for a trajectory. *)
Lemma central_cost d n ds T : single_problem 0 d n ds -> mrows T = d -> mcols T = ((d + 1) * n)%nat ->
  exists g0 g, newPoseGraph 0 d d = Ok g0 /\ setMeasurements g0 ds = Ok g /\ exists g' v, qp_f g T = Ok (g', v) /\ 2 * v = mx_cost d (firsts ds) T.
Proof.
  intros HP T1 T2. destruct (sp_graph 0 d n ds HP) as (g0 & g & E0 & ES & C & PP & SH & PR & NP & GN & GD & GR).
  destruct (sp_needed 0 d n ds HP g PP SH GN) as (NK & NS & LP). exists g0, g. split; [exact E0|]. split; [exact ES|].
  destruct (cost_defined 0 d d _ g T C NK NS LP T1) as (g' & v & E); [rewrite GN, Nat2N.id, T2; lia|].
  exists g', v. split; [exact E|]. rewrite (sp_cost 0 d ds g T g' v C PP SH PR NP E).
  assert (Z : mx_cost d (firsts ds) (mzero 0 0) = 0).
  { apply rsumL_zero. intros m _. apply edge_cost_zero. }
  rewrite Z. lra.
Qed.

Lemma dim_of_ds d n ds : single_problem 0 d n ds -> dataset_dim ds = d.
Proof.
  intros (_ & Hp & _ & _ & Hm). pose proof (ms_nonempty _ _ Hp). destruct ds as [|e ds]; [congruence|]. cbn. apply (Hm e (or_introl eq_refl)).
Qed.

(** ** Chordal initialisation *)
Theorem chordal_prints : forall qr svd dt d n ds,
  single_problem 0 d n ds -> (N.of_nat n * N.of_nat (d * d) < two32)%N -> SpecSolver.svd_sized svd d ->
  exists T, chordalInitialization qr svd dt ds = Ok T /\ traj d n T /\
    chordal_program qr svd dt ds = Ok (T, mx_cost d (firsts ds) (pa_X T)).
Proof.
  intros qr svd dt d n ds HP Hn Hv. pose proof HP as (Hd & Hp & _ & _ & Hm).
  destruct (chordal_total qr svd dt d n ds Hd Hp Hn) as (T & ET & TT & _); auto. { intros m I. apply (Hm m I). }
  exists T. split; [exact ET|]. split; [exact TT|]. pose proof TT as (_ & _ & _ & T1 & T2).
  destruct (central_cost d n ds (pa_X T) HP T1 T2) as (g0 & g & E0 & ES & g' & v & EF & V).
  unfold chordal_program. cbv zeta. rewrite (dim_of_ds d n ds HP), E0. cbn [bind]. rewrite ES. cbn [bind]. rewrite ET. cbn [bind]. rewrite EF. cbn [bind]. rewrite <- V. reflexivity.
Qed.

(** ** The single-robot example *)
Lemma split_app (ds : list (Meas R)) : (forall e, In e ds -> mr1 e = 0%N /\ mr2 e = 0%N /\ (mp1 e < 4294967295)%N /\ (mp2 e < 4294967295)%N /\ mweight e = 1 /\ mfixed e = false) ->
  single_split ds = (filter next_pose ds, filter (fun e => negb (next_pose e)) ds).
Proof.
  intros Q0. unfold single_split.
  match goal with |- fold_left ?f _ _ = _ => assert (G : forall u v, fold_left f ds (u, v) = (u ++ filter next_pose ds, v ++ filter (fun e => negb (next_pose e)) ds)); [|exact (G [] [])] end.
  revert Q0.
  induction ds as [|e ds IH]; intros Q u v; [cbn; rewrite !app_nil_r; reflexivity|]. cbn [fold_left filter].
  destruct (Q e (or_introl eq_refl)) as (R1 & R2 & P1 & P2 & W & F).
  assert (U1 : u32 (mp1 e) = mp1 e) by (unfold u32, two32; apply N.mod_small; lia).
  assert (U2 : u32 (mp2 e) = mp2 e) by (unfold u32, two32; apply N.mod_small; lia).
  rewrite U1, U2. replace (u32 (mp1 e + 1)) with (mp1 e + 1)%N by (unfold u32, two32; rewrite N.mod_small; lia).
  assert (EM : new_meas 0 0 (mp1 e) (mp2 e) (mR e) (mt e) (mkappa e) (mtau e) = e).
  { unfold new_meas. destruct e. cbn in *. subst. reflexivity. }
  rewrite EM. replace (mp1 e + 1 =? mp2 e)%N with (next_pose e) by (unfold next_pose; apply N.eqb_sym). cbn [fst snd].
  destruct (next_pose e); cbn [negb]; rewrite IH by (intros; apply Q; right; auto); rewrite <- app_assoc; reflexivity.
Qed.

Section One.
Context (d : nat) (n : N) (ds : list (Meas R)) (HDs : dataset_ok d d n 1 ds).
Context (HF : forall e, In e ds -> mfixed e = false).
Lemma one_sizes : (2 <= n)%N /\ (n < 4294967296)%N.
Proof. destruct HDs as ((_ & _ & A & _) & B & _). rewrite N.div_1_r in B. auto. Qed.
Lemma one_owner p : (p < n)%N -> owner n 1 p = 0%N.
Proof.
  intros Hp. assert (Hs : sizes_ok n 1) by apply HDs. pose proof (owner_owns n 1 p Hs Hp) as O. unfold owns, ownsb in O.
  repeat (apply andb_prop in O; destruct O as [O ?]). apply N.ltb_lt in O. lia.
Qed.
Lemma one_relabel e : In e ds -> relabel n 1 e = e.
Proof.
  intros He. pose proof HDs as (_ & _ & _ & _ & _ & Q & _). destruct (Q e He) as (R1 & R2 & P1 & P2 & _ & W & _). pose proof (HF e He) as F.
  unfold relabel, new_meas. rewrite (one_owner _ P1), (one_owner _ P2). rewrite !N.mul_0_l, !N.sub_0_r. destruct e. cbn in *. subst. reflexivity.
Qed.
Lemma one_both e : In e ds -> both n 1 0 e = true.
Proof.
  intros He. pose proof HDs as (Hs & _ & _ & _ & _ & Q & _). destruct (Q e He) as (_ & _ & P1 & P2 & _).
  unfold both. rewrite !(ownsb_owner n 1 0) by auto. rewrite (one_owner _ P1), (one_owner _ P2). reflexivity.
Qed.
Lemma one_map l : (forall e, In e l -> In e ds) -> map (relabel n 1) l = l.
Proof. intros Q. rewrite <- (map_id l) at 2. apply map_ext_in. intros e He. apply one_relabel; auto. Qed.
Lemma one_parts : map (relabel n 1) (filter (od n 1 0) ds) = filter next_pose ds /\
  map (relabel n 1) (filter (pr n 1 0) ds) = filter (fun e => negb (next_pose e)) ds /\
  map (relabel n 1) (filter (one_end n 1 0) ds) = [].
Proof.
  split; [|split].
  - rewrite one_map by (intros e He; apply filter_In in He; tauto). apply filter_ext_in. intros e He. unfold od. rewrite one_both by auto. reflexivity.
  - rewrite one_map by (intros e He; apply filter_In in He; tauto). apply filter_ext_in. intros e He. unfold pr. rewrite one_both by auto. reflexivity.
  - rewrite filter_no; [reflexivity|]. intros e He. pose proof (one_both e He) as B. unfold both in B. apply andb_prop in B. destruct B as [B1 B2]. unfold one_end. rewrite B1, B2. reflexivity.
Qed.
Lemma one_pairs : NoDup (map (@key R) ds).
Proof. apply key_pairs. apply HDs. Qed.

Section X.
Context (x : Ext R) (ls : LocalSolvers R) (HI : inverse_ok (x_minv x) d) (HFY : mrows (x_fixedY x d d) = d /\ mcols (x_fixedY x d d) = d).
(** The robot of the program. *)
Lemma one_robot : exists a0 a1 a2, newAgent x 0 (ex_params d d 1 false) = Ok a0 /\
  ag_setMeasurements a0 (filter next_pose ds) (filter (fun e => negb (next_pose e)) ds) [] = Ok a1 /\
  ag_initialize x ls a1 None = Ok a2 /\ localMeasurements (a_pg a2) = sorted_ds ds.
Proof.
  destruct (robot_total x ls d d n 1 ds false HDs HI HFY 0 [] ltac:(lia) eq_refl) as (ags & E & Ln & RD).
  { intros [|k] a; discriminate. }
  unfold ex_robot in E. apply bind_Ok in E. destruct E as (a0 & E0 & E). cbn [N.ltb N.compare bind sp_odom sp_priv sp_shared] in E.
  rewrite !(table_nth n 1) in E by lia. destruct one_parts as (P1 & P2 & P3). rewrite P1, P2, P3 in E.
  apply bind_Ok in E. destruct E as (a1 & E1 & E). apply bind_Ok in E. destruct E as (a2 & E2 & E). injection E as <-.
  exists a0, a1, a2. split; [exact E0|]. split; [exact E1|]. split; [exact E2|].
  pose proof (RD 0%nat a2 eq_refl) as A. destruct A. unfold localMeasurements. rewrite (st_odom _ _ _ _ _ _ _ rd_pg), (st_priv _ _ _ _ _ _ _ rd_pg).
  cbn [N.of_nat]. rewrite P1, P2. reflexivity.
Qed.
End X.
End One.

Lemma ds_cost d (n : N) ds X : dataset_ok d d n 1 ds -> mx_cost d (firsts ds) X = 2 * dataset_cost d d ds X.
Proof. intros HDs. rewrite firsts_id by (apply (one_pairs d n ds HDs)). unfold dataset_cost, mx_cost. lra. Qed.

Lemma run_single x ls qr svd dt St (L : PoseGraph R -> Lib R St) d n ds T :
  dataset_ok d d n 1 ds -> (forall e, In e ds -> mfixed e = false) ->
  inverse_ok (x_minv x) d -> mrows (x_fixedY x d d) = d -> mcols (x_fixedY x d d) = d ->
  solvePGO qr svd dt L (sorted_ds ds) default_ro None = Ok T -> traj d (N.to_nat n) T ->
  single_program x ls qr svd dt L ds = Ok (pa_X T, 2 * dataset_cost d d ds (pa_X T)).
Proof.
  intros HDs HF HI Y1 Y2 ET TT. pose proof (ds_single d d n 1 ds HDs) as HP. pose proof TT as (_ & _ & _ & T1 & T2).
  destruct (one_robot d n ds HDs HF x ls HI (conj Y1 Y2)) as (a0 & a1 & a2 & E0 & E1 & E2 & EL).
  destruct (central_cost d (N.to_nat n) ds (pa_X T) HP T1 T2) as (g0 & g & EG & ES & g' & v & EF & V).
  unfold single_program. cbv zeta. rewrite (dim_of_ds _ _ _ HP). rewrite split_app.
  2:{ intros e He. pose proof HDs as ((_ & _ & Hn & _) & _ & _ & _ & _ & Q & O). destruct (Q e He) as (A & B & C & D & F & G & _).
      destruct (one_sizes d n ds HDs). repeat split; auto; lia. }
  rewrite EG. cbn [bind]. rewrite ES. cbn [bind]. rewrite E0. cbn [bind]. rewrite E1. cbn [bind]. rewrite E2. cbn [bind].
  unfold ag_localPGO. rewrite EL, ET. cbn [bind]. rewrite EF. cbn [bind]. rewrite <- (ds_cost d n ds (pa_X T) HDs), <- V. reflexivity.
Qed.

Theorem single_prints : forall x ls qr svd dt St (L : PoseGraph R -> Lib R St) d n ds,
  dataset_ok d d n 1 ds -> (n * N.of_nat (d * d) < two32)%N -> (forall e, In e ds -> mfixed e = false) ->
  inverse_ok (x_minv x) d -> mrows (x_fixedY x d d) = d -> mcols (x_fixedY x d d) = d ->
  SpecSolver.svd_sized svd d -> descent_solver L false ->
  exists Ti X v, chordalInitialization qr svd dt (filter next_pose ds ++ filter (fun e => negb (next_pose e)) ds) = Ok Ti /\
    single_program x ls qr svd dt L ds = Ok (X, v) /\ whole d d n X /\
    v = 2 * dataset_cost d d ds X /\ v <= 2 * dataset_cost d d ds (pa_X Ti).
Proof.
  intros x ls qr svd dt St L d n ds HDs Hn HF HI Y1 Y2 Hv HL.
  pose proof (perm_single _ _ _ _ _ (sorted_perm ds) (ds_single d d n 1 ds HDs)) as HP. pose proof HP as (Hd & Hp & _ & _ & Hm).
  destruct (chordal_total qr svd dt d (N.to_nat n) (sorted_ds ds) Hd Hp) as (Ti & ETi & TTi & _); auto. { rewrite N2Nat.id. exact Hn. } { intros m I. apply (Hm m I). }
  destruct (solve_not_worse qr svd dt St L default_ro 0 d (N.to_nat n) (sorted_ds ds) None Ti HP eq_refl (or_intror (conj eq_refl ETi)) TTi HL) as (T & ET & TT & CT).
  exists Ti, (pa_X T), (2 * dataset_cost d d ds (pa_X T)). split; [exact ETi|]. split; [apply (run_single x ls qr svd dt St L d n ds T); auto|].
  pose proof TT as (_ & _ & _ & T1 & T2). split; [split; [exact T1|rewrite T2; lia]|]. split; [reflexivity|].
  rewrite <- !(ds_cost d n ds _ HDs). rewrite !firsts_id in *; try apply (one_pairs d n ds HDs).
  - rewrite !(perm_cost d ds (sorted_ds ds)) in CT by apply sorted_perm. exact CT.
  - apply (Permutation_NoDup (Permutation_map _ (Permutation_sym (sorted_perm ds)))). apply (one_pairs d n ds HDs).
Qed.

Theorem single_exact : forall x ls qr svd dt St (L : PoseGraph R -> Lib R St) d n ds (Rt tt : nat -> Mx R) B1 B2 B3,
  dataset_ok d d n 1 ds -> (n * N.of_nat (d * d) < two32)%N -> (forall e, In e ds -> mfixed e = false /\ 0 < mkappa e /\ 0 < mtau e) ->
  inverse_ok (x_minv x) d -> mrows (x_fixedY x d d) = d -> mcols (x_fixedY x d d) = d -> descent_solver L false ->
  (forall i, (i < N.to_nat n)%nat -> rotation d (Rt i)) ->
  (forall e, In e ds -> consistent d e (Rt (N.to_nat (mp1 e))) (tt (N.to_nat (mp1 e))) (Rt (N.to_nat (mp2 e))) (tt (N.to_nat (mp2 e)))) ->
  constructBMatrices (filter next_pose ds ++ filter (fun e => negb (next_pose e)) ds) = Ok (B1, B2, B3) ->
  solves_if_possible qr (last_cols ((N.to_nat n - 1) * (d * d)) B3) -> solves_if_possible qr (last_cols (d * (N.to_nat n - 1)) B1) ->
  SpecSolver.svd_sized svd d -> (forall M, rotation d M -> svd_at svd d d M) -> (forall A, mrows A = d -> mcols A = d -> dt A = det d A) ->
  exists X, single_program x ls qr svd dt L ds = Ok (X, 0) /\ whole d d n X /\
    forall i a, (i < N.to_nat n)%nat -> (a < d)%nat ->
      (forall c, (c < d)%nat -> pose_blk d X i a c = rsum d (fun b => pose_blk d X 0 a b * seen_rot d Rt i b c)) /\
      pose_blk d X i a d = pose_blk d X 0 a d + rsum d (fun b => pose_blk d X 0 a b * seen_pos d Rt tt i b).
Proof.
  intros x ls qr svd dt St L d n ds Rt tt B1 B2 B3 HDs Hn HF HI Y1 Y2 HL Hrot Hc EB L3 L1 Hss Hsv Hdt.
  pose proof (sorted_perm ds) as SP. pose proof (perm_single _ _ _ _ _ SP (ds_single d d n 1 ds HDs)) as HP.
  pose proof HDs as (_ & _ & _ & _ & _ & Q & _).
  destruct (solve_exact qr svd dt St L default_ro 0 d (N.to_nat n) (sorted_ds ds) Rt tt B1 B2 B3) as (T & ET & TT & ZT & VT); auto.
  { rewrite N2Nat.id. exact Hn. }
  { intros e He. apply (Permutation_in _ SP) in He. destruct (HF e He) as (_ & K & U). destruct (Q e He) as (_ & _ & _ & _ & _ & W & _). repeat split; lra. }
  { intros e He. apply Hc. apply (Permutation_in _ SP He). }
  { intros i Hi. apply (perm_reached ds); auto. rewrite N2Nat.id in Hi. apply (ds_reached d d n 1 ds HDs i Hi). }
  exists (pa_X T). pose proof TT as (_ & D & _ & T1 & T2).
  pose proof (run_single x ls qr svd dt St L d n ds T HDs (fun e He => proj1 (HF e He)) HI Y1 Y2 ET TT) as E.
  rewrite (perm_cost d ds) in ZT by exact SP. unfold dataset_cost in E. unfold mx_cost in ZT. rewrite ZT in E.
  split; [rewrite E; f_equal; f_equal; lra|]. split; [split; [exact T1|rewrite T2; lia]|].
  assert (BT : forall i a c, pblk T i a c = pose_blk d (pa_X T) i a c) by (intros; unfold pblk, pose_blk; rewrite D, Nat.add_1_r; reflexivity).
  intros i a Hi Ha. destruct (VT i a Hi Ha) as [V1 V2]. split.
  - intros c Hcc. rewrite <- BT, V1 by auto. apply rsum_ext. intros. rewrite BT. reflexivity.
  - rewrite <- !BT, V2. apply f_equal. apply rsum_ext. intros. rewrite <- ?BT. reflexivity.
Qed.

Theorem chordal_prints_exact : forall qr svd dt d n ds (Rt tt : nat -> Mx R) B1 B2 B3,
  single_problem 0 d n ds -> (N.of_nat n * N.of_nat (d * d) < two32)%N ->
  (forall e, In e ds -> 0 < mkappa e /\ 0 < mtau e) ->
  (forall i, (i < n)%nat -> rotation d (Rt i)) ->
  (forall e, In e ds -> consistent d e (Rt (N.to_nat (mp1 e))) (tt (N.to_nat (mp1 e))) (Rt (N.to_nat (mp2 e))) (tt (N.to_nat (mp2 e)))) ->
  (forall i, (i < N.of_nat n)%N -> reached ds i) ->
  constructBMatrices ds = Ok (B1, B2, B3) ->
  solves_if_possible qr (last_cols ((n - 1) * (d * d)) B3) -> solves_if_possible qr (last_cols (d * (n - 1)) B1) ->
  SpecSolver.svd_sized svd d -> (forall M, rotation d M -> svd_at svd d d M) -> (forall A, mrows A = d -> mcols A = d -> dt A = det d A) ->
  exists T, chordal_program qr svd dt ds = Ok (T, 0) /\ forall i a, (i < n)%nat -> (a < d)%nat ->
      (forall c, (c < d)%nat -> pblk T i a c = seen_rot d Rt i a c) /\ pblk T i a d = seen_pos d Rt tt i a.
Proof.
  intros qr svd dt d n ds Rt tt B1 B2 B3 HP Hn HK Hrot Hc Hconn EB L3 L1 Hss Hsv Hdt. pose proof HP as (Hd & PC & _ & _ & PD).
  destruct (chordal_exact qr svd dt d n ds Rt tt B1 B2 B3) as (Ti & ETi & TTi & VTi); auto.
  { intros m Hm. destruct (PD m Hm) as (_ & _ & _ & S). destruct (HK m Hm) as (K & T). auto. }
  destruct (chordal_prints qr svd dt d n ds HP Hn Hss) as (T & ET & TT & EP). assert (T = Ti) by congruence. subst Ti.
  exists T. split; [|exact VTi]. rewrite EP. f_equal. f_equal. destruct TT as (_ & Di & _).
  assert (BI : forall i a c, pblk T i a c = pose_blk d (pa_X T) i a c) by (intros; unfold pblk, pose_blk; rewrite Di, Nat.add_1_r; reflexivity).
  apply rsumL_zero. intros m Hm. apply firsts_in in Hm. destruct (in_range_ms n ds PC m Hm) as [I1 I2]. apply ProofsInit4.edge_cost_zero.
  - intros a c Ha Hcc. rewrite <- BI. rewrite (proj1 (VTi _ a I2 Ha) c Hcc), (seen_rot_edge d ds Rt tt Hc m a c Hm Ha Hcc). apply rsum_ext.
    intros b Hb. rewrite <- BI, (proj1 (VTi _ a I1 Ha) b Hb). reflexivity.
  - intros a Ha. rewrite <- !BI. rewrite (proj2 (VTi _ a I2 Ha)), (proj2 (VTi _ a I1 Ha)), (seen_pos_edge d ds Rt tt Hc m a Hm Ha). f_equal.
    apply rsum_ext. intros b Hb. rewrite <- BI, (proj1 (VTi _ a I1 Ha) b Hb). reflexivity.
Qed.

(** ** Graduated non-convexity *)
Section Gnc.
Context (d : nat) (n : N) (ds : list (Meas R)) (HDs : dataset_ok d d n 1 ds).
Lemma odo_sublist : chain d (filter next_pose ds) /\ length (filter next_pose ds) = (N.to_nat n - 1)%nat.
Proof.
  pose proof HDs as ((_ & _ & Hn & _) & _ & Hd & _ & _ & Q & O). destruct (one_sizes d n ds HDs) as [N2 _].
  assert (Ln : length (filter next_pose ds) = (N.to_nat n - 1)%nat) by (rewrite <- (map_length mp1), O, map_length, seq_length; reflexivity).
  split; [|exact Ln]. split; [intros Z; rewrite Z in Ln; cbn in Ln; lia|]. split; [exact Hd|]. split; [rewrite Ln; unfold two64; lia|].
  intros j e Ej. pose proof (map_nth_error mp1 _ _ Ej) as E1. rewrite O in E1.
  assert (Hj : (j < N.to_nat n - 1)%nat) by (rewrite <- Ln; apply nth_error_Some; congruence).
  assert (E2 : nth_error (map N.of_nat (seq 0 (N.to_nat n - 1))) j = Some (N.of_nat j)).
  { apply map_nth_error. rewrite (nth_error_nth' _ 0%nat) by (rewrite seq_length; auto). rewrite seq_nth; auto. }
  rewrite E2 in E1. injection E1 as E1. apply nth_error_In in Ej. apply filter_In in Ej. destruct Ej as [Hin He]. unfold next_pose in He. apply N.eqb_eq in He.
  split; [auto|]. split; [rewrite He, <- E1; lia|]. apply (Q e Hin).
Qed.
Lemma odo_stored g0 g : newPoseGraph 0 d d = Ok g0 -> setMeasurements g0 ds = Ok g -> pg_odom g = filter next_pose ds.
Proof.
  intros E0 ES. pose proof HDs as (_ & _ & Hd & _ & _ & Q & _). destruct (one_sizes d n ds HDs) as [_ Nb].
  destruct (store_exact 0 d d ds (le_n d)) as (g' & E & S1 & _).
  - apply Forall_forall. intros e He. destruct (Q e He) as (A & B & C & D & _). unfold ids_ok. rewrite A, B. unfold two32. repeat split; lia.
  - apply Forall_forall. intros e He. apply (Q e He).
  - rewrite E0 in E. cbn [bind] in E. rewrite run_adds in E. unfold setMeasurements in ES.
    assert (EE : pg_empty g0 = g0) by (unfold newPoseGraph in E0; apply check_Ok in E0; destruct E0 as [_ E0]; injection E0 as <-; reflexivity).
    rewrite EE in ES. assert (g' = g) by congruence. subst g'. rewrite S1. unfold kept.
    rewrite (filter_yes (relevantb 0)), firsts_id.
    + apply filter_ext_in. intros e He. destruct (Q e He) as (A & B & _). unfold is_odom. rewrite A, B. reflexivity.
    + apply (one_pairs d n ds HDs).
    + intros e He. destruct (Q e He) as (A & B & _). unfold relevantb. rewrite A. reflexivity.
Qed.
End Gnc.

Lemma sbw_in ms ms' m' : same_but_weights ms ms' -> In m' ms' -> exists m w, In m ms /\ m' = set_mweight w m.
Proof. induction 1 as [|a b l l' (w & ->) _ IH]; intros []; [subst; exists a, w; split; [left|]; auto|]. destruct (IH H) as (m & v & I & E). exists m, v. split; [right|]; auto. Qed.
Lemma sbw_key ms ms' : same_but_weights ms ms' -> map (@key R) ms' = map key ms.
Proof. induction 1 as [|a b l l' (w & ->) _ IH]; [reflexivity|]. cbn [map]. rewrite IH. reflexivity. Qed.
Lemma sbw_in2 ms ms' m : same_but_weights ms ms' -> In m ms -> exists w, In (set_mweight w m) ms'.
Proof. induction 1 as [|a b l l' (w & ->) _ IH]; intros []; [subst; exists w; left; auto|]. destruct (IH H) as (v & I). exists v. right. exact I. Qed.
Lemma sbw_single k d n ms ms' : same_but_weights ms ms' -> single_problem k d n ms -> single_problem k d n ms'.
Proof.
  intros B (Hd & [A (m & I & C)] & Hn & Hk & Hm). split; [exact Hd|]. split; [split|split; [exact Hn|split; [exact Hk|]]].
  - intros e He. destruct (sbw_in _ _ _ B He) as (m0 & w & I0 & ->). exact (A m0 I0).
  - destruct (sbw_in2 _ _ _ B I) as (w & I0). exists (set_mweight w m). split; [exact I0|exact C].
  - intros e He. destruct (sbw_in _ _ _ B He) as (m0 & w & I0 & ->). exact (Hm m0 I0).
Qed.
Lemma unit_same (ds : list (Meas R)) : (forall e, In e ds -> mweight e = 1) -> map (set_mweight 1) ds = ds.
Proof. intros H. rewrite <- (map_id ds) at 2. apply map_ext_in. intros e He. specialize (H e He). destruct e; cbn in *. rewrite H. reflexivity. Qed.

Lemma run_gnc qr svd dt St (L : PoseGraph R -> Lib R St) mudiv d n ds TO : dataset_ok d d n 1 ds -> odometryInitialization (filter next_pose ds) None = Ok TO ->
  gnc_program qr svd dt L mudiv ds = solveRobustPGO mudiv (fun ms => solvePGO qr svd dt L ms (mkRO true 1 (1 / 1000) true 50 100) (Some TO)) ds (default_robust GNC_TLS).
Proof.
  intros HDs ETO. pose proof (ds_single d d n 1 ds HDs) as HP. destruct (sp_graph 0 d (N.to_nat n) ds HP) as (g0 & g & E0 & ES & _).
  unfold gnc_program. pose proof HP as (_ & Hp & _). pose proof (ms_nonempty _ _ Hp) as NE. destruct ds as [|e l] eqn:El; [congruence|]. rewrite <- El in *. cbn [check]. cbv zeta.
  rewrite (dim_of_ds d (N.to_nat n) ds HP), E0. cbn [bind]. rewrite ES. cbn [bind]. rewrite (odo_stored d n ds HDs g0 g E0 ES), ETO. reflexivity.
Qed.

Theorem gnc_runs : forall qr svd dt St (L : PoseGraph R -> Lib R St) mudiv d n ds,
  dataset_ok d d n 1 ds -> (forall e, In e ds -> 0 <= mkappa e /\ 0 <= mtau e) -> descent_solver L false -> div_ok mudiv ->
  exists TO T0 T ms', let solve ms := solvePGO qr svd dt L ms (mkRO true 1 (1 / 1000) true 50 100) (Some TO) in
    odometryInitialization (filter next_pose ds) None = Ok TO /\
    (forall ms1, same_but_weights ds ms1 -> exists T1, solve ms1 = Ok T1 /\ traj d (N.to_nat n) T1 /\ mx_cost d ms1 (pa_X T1) <= mx_cost d ms1 (pa_X TO)) /\
    gnc_program qr svd dt L mudiv ds = Ok (T, ms') /\ solve ds = Ok T0 /\ solve ms' = Ok T /\
    ((forall m, In m ds -> 2 * pgo_res d T0 m < 25) -> ms' = ds) /\
    (forall m, In m ds -> (forall m', In m' ds -> pgo_res d T0 m' <= pgo_res d T0 m) -> 25 < 2 * pgo_res d T0 m ->
       exists k, (k <= 20)%nat /\ gnc_rounds solve d 5 (25 / (2 * pgo_res d T0 m - 25)) (14 / 10) ds k ms' /\
         (k = 20%nat \/ (0 < k)%nat /\ Forall decided ms')).
Proof.
  intros qr svd dt St L mudiv d n ds HDs HK HL Hdiv. pose proof (ds_single d d n 1 ds HDs) as HP. pose proof HP as (Hd & Hp & Hn & _ & Hm).
  pose proof HDs as (_ & _ & _ & _ & _ & Q & _). destruct (one_sizes d n ds HDs) as [N2 _].
  destruct (odo_sublist d n ds HDs) as [CH LN]. destruct (odometry_chain d _ CH) as (TO & ETO & TTO & _). rewrite LN in TTO.
  replace (S (N.to_nat n - 1)) with (N.to_nat n) in TTO by lia.
  set (solve := fun ms => solvePGO qr svd dt L ms (mkRO true 1 (1 / 1000) true 50 100) (Some TO)).
  assert (HS : forall ms1, same_but_weights ds ms1 -> exists T1, solve ms1 = Ok T1 /\ traj d (N.to_nat n) T1 /\ mx_cost d ms1 (pa_X T1) <= mx_cost d ms1 (pa_X TO)).
  { intros ms1 B. destruct (solve_not_worse qr svd dt St L (mkRO true 1 (1 / 1000) true 50 100) 0 d (N.to_nat n) ms1 (Some TO) TO (sbw_single _ _ _ _ _ B HP) eq_refl (or_introl eq_refl) TTO HL) as (T1 & E1 & TT1 & C1).
    exists T1. split; [exact E1|]. split; [exact TT1|]. rewrite firsts_id in C1; [exact C1|]. rewrite (sbw_key _ _ B). apply (one_pairs d n ds HDs). }
  destruct (robust_pgo mudiv solve d (N.to_nat n) ds (default_robust GNC_TLS)) as (T0 & T & ms' & E0 & ER & ET & U1 & U2); auto.
  { intros m I. destruct (HK m I). split; [apply (Hm m I)|auto]. }
  { intros ms1 B. destruct (HS ms1 B) as (T1 & E1 & TT1 & _). eauto. }
  { cbn. lra. } { cbn. reflexivity. }
  exists TO, T0, T, ms'. cbv zeta. fold solve. split; [exact ETO|]. split; [exact HS|]. split; [rewrite (run_gnc _ _ _ _ _ _ _ _ _ _ HDs ETO); exact ER|].
  split; [exact E0|]. split; [exact ET|]. change (GNCBarc (default_robust GNC_TLS)) with 5 in U1, U2. change (GNCMuStep (default_robust GNC_TLS)) with (14 / 10) in U2.
  change (GNCMaxNumIters (default_robust GNC_TLS)) with 20%N in U2. replace (5 * 5) with 25 in U1, U2 by lra. split.
  - intros H. rewrite (U1 H). apply unit_same. intros e He. apply (Q e He).
  - intros m I M1 M2. destruct (U2 m I M1 M2) as (k & K1 & K2 & K3). exists k. split; [lia|]. split; [exact K2|]. destruct K3 as [K3|K3]; [left; lia|right; exact K3].
Qed.

Theorem gnc_exact : forall qr svd dt St (L : PoseGraph R -> Lib R St) mudiv d n ds (Rt tt : nat -> Mx R),
  dataset_ok d d n 1 ds -> (forall e, In e ds -> 0 < mkappa e /\ 0 < mtau e) -> descent_solver L false -> div_ok mudiv ->
  (forall i, (i < N.to_nat n)%nat -> rotation d (Rt i)) ->
  (forall e, In e ds -> consistent d e (Rt (N.to_nat (mp1 e))) (tt (N.to_nat (mp1 e))) (Rt (N.to_nat (mp2 e))) (tt (N.to_nat (mp2 e)))) ->
  exists T, gnc_program qr svd dt L mudiv ds = Ok (T, ds) /\ traj d (N.to_nat n) T /\
    forall i a, (i < N.to_nat n)%nat -> (a < d)%nat ->
      (forall c, (c < d)%nat -> pblk T i a c = rsum d (fun b => pblk T 0 a b * seen_rot d Rt i b c)) /\
      pblk T i a d = pblk T 0 a d + rsum d (fun b => pblk T 0 a b * seen_pos d Rt tt i b).
Proof.
  intros qr svd dt St L mudiv d n ds Rt tt HDs HK HL Hdiv Hrot Hc. pose proof (ds_single d d n 1 ds HDs) as HP. pose proof HP as (Hd & Hp & Hn & _ & Hm).
  pose proof HDs as (_ & _ & _ & _ & _ & Q & O). destruct (one_sizes d n ds HDs) as [N2 _].
  destruct (odo_sublist d n ds HDs) as [CH LN]. destruct (odometry_chain d _ CH) as (TO & ETO & TTO & I0 & HLK). rewrite LN in TTO.
  replace (S (N.to_nat n - 1)) with (N.to_nat n) in TTO by lia.
  assert (Hw : forall m, In m ds -> 0 < mweight m /\ 0 < mkappa m /\ 0 < mtau m).
  { intros m I. destruct (Q m I) as (_ & _ & _ & _ & _ & W & _). destruct (HK m I). repeat split; lra. }
  assert (DO : pa_d TO = d) by apply TTO.
  assert (BO : forall i a c, pblk TO i a c = pose_blk d (pa_X TO) i a c) by (intros; unfold pblk, pose_blk; rewrite DO, Nat.add_1_r; reflexivity).
  assert (PS : forall i, (i < N.to_nat n)%nat -> reached (filter next_pose ds) (N.of_nat i)).
  { induction i as [|i IH]; intros Hi; [constructor|].
    assert (I : In (N.of_nat i) (map mp1 (filter next_pose ds))) by (rewrite O; apply in_map, in_seq; lia).
    apply in_map_iff in I. destruct I as (e & Ee & Ie). pose proof Ie as Nx. apply filter_In in Nx. destruct Nx as [_ Nx]. unfold next_pose in Nx. apply N.eqb_eq in Nx.
    replace (N.of_nat (S i)) with (mp2 e) by lia. apply reached_fwd; auto. rewrite Ee. apply IH. lia. }
  assert (PO : pose_count (filter next_pose ds) (N.of_nat (N.to_nat n))).
  { split.
    - intros e He. apply filter_In in He. apply (proj1 Hp e), He.
    - assert (I : In (N.of_nat (N.to_nat n - 2)) (map mp1 (filter next_pose ds))) by (rewrite O; apply in_map, in_seq; lia).
      apply in_map_iff in I. destruct I as (e & Ee & Ie). exists e. split; [exact Ie|]. right. apply filter_In in Ie. destruct Ie as [_ Nx]. unfold next_pose in Nx. apply N.eqb_eq in Nx. lia. }
  assert (ZO : mx_cost d (filter next_pose ds) (pa_X TO) = 0).
  { apply rsumL_zero. intros e He. apply In_nth_error in He. destruct He as (k & Ek). pose proof (HLK k e Ek) as LK. destruct CH as (_ & _ & _ & CH). destruct (CH k e Ek) as (P1 & P2 & _).
    rewrite P1, P2. rewrite !Nat2N.id, Nat.add_1_r. apply ProofsInit4.edge_cost_zero.
    - intros a c Ha Hcc. rewrite <- BO. rewrite (proj1 (LK a Ha) c Hcc). apply rsum_ext. intros. rewrite BO. reflexivity.
    - intros a Ha. rewrite <- !BO. rewrite (proj2 (LK a Ha)). f_equal. apply rsum_ext. intros. rewrite BO. reflexivity. }
  destruct (zero_exact d (N.to_nat n) (filter next_pose ds) Rt tt TO) as [_ VO]; auto.
  { intros m I. apply filter_In in I. apply Hw, I. }
  { intros m I. apply filter_In in I. apply Hc, I. }
  { intros i Hi. rewrite N2Nat.id in Hi. rewrite <- (N2Nat.id i). apply PS. lia. }
  { rewrite firsts_id; [lra|]. apply NoDup_map_filter. apply (one_pairs d n ds HDs). }
  pose proof (true_cost d (N.to_nat n) ds Rt tt TO Hp Hc DO VO) as ZD.
  destruct (solve_not_worse qr svd dt St L (mkRO true 1 (1 / 1000) true 50 100) 0 d (N.to_nat n) ds (Some TO) TO HP eq_refl (or_introl eq_refl) TTO HL) as (T & ET & TT & CT).
  pose proof (firsts_id ds (one_pairs d n ds HDs)) as FD. pose proof (unit_same ds (fun e He => proj1 (proj2 (proj2 (proj2 (proj2 (proj2 (Q e He)))))))) as US.
  rewrite FD, ZD in CT. pose proof TT as (_ & D & _).
  destruct (zero_exact d (N.to_nat n) ds Rt tt T Hp Hw Hrot Hc) as [ZT VT]; auto.
  { intros i Hi. rewrite N2Nat.id in Hi. apply (ds_reached d d n 1 ds HDs i Hi). } { rewrite FD. exact CT. }
  exists T. split; [|split; [exact TT|exact VT]]. rewrite (run_gnc _ _ _ _ _ _ _ _ _ _ HDs ETO).
  rewrite <- US at 2. apply (robust_zero mudiv _ (default_robust GNC_TLS) 0 d (N.to_nat n) ds T T); auto.
  - rewrite US. exact ET.
  - cbn. lra.
Qed.
