(** The single-robot programs: datasets they do not accept, repeated
    measurements, and cases. *)
From Coq Require Import List NArith ZArith Bool Arith Lia Lra Reals Permutation.
From Verif Require Import Base SMap Num RSum Det MatR ModelTypes ModelPoseGraph ModelProblem ModelRobust ModelPoses ModelSolver ModelChordal ModelOptimizer ModelInit ModelAgent ModelExample ModelExampleRun ModelPrograms
  SpecPoseGraph SpecPGHist SpecCost SpecSolver SpecOptimizer SpecInit SpecAgent SpecFrames SpecExample SpecRun SpecRobust SpecRobustPgo
  ProofsPoseGraph ProofsAgent ProofsAgent2 ProofsPGHist ProofsCost ProofsCost4 ProofsSolver ProofsSolverEx ProofsChordal ProofsInit ProofsInit2 ProofsInit4 ProofsInitEx ProofsFramesEx ProofsGnc ProofsGnc2 ProofsRobustPgoEx ProofsRunEx ProofsRun7 ProofsPrograms.
Import ListNotations.
Local Open Scope res_scope.
Local Open Scope R_scope.

(** ** No odometry *)
Lemma add_no_odom (g g' : PoseGraph R) m : ids_ok m -> next_pose m = false -> addMeasurement g m = Ok g' -> pg_odom g' = pg_odom g.
Proof.
  unfold addMeasurement, addPrivateLoopClosure, addSharedLoopClosure. intros (_ & _ & I1 & I2) Nx E.
  destruct (_ && _) in E; [injection E as <-; auto|]. destruct (_ && _) in E.
  - assert (Z : (u64 (mp1 m + 1) =? mp2 m)%N = false).
    { unfold u64, two64. rewrite N.mod_small by lia. rewrite N.eqb_sym. exact Nx. }
    rewrite Z in E. destruct (hasMeasurement _ _ _) in E; [injection E as <-; auto|]. do 3 (apply check_Ok in E; destruct E as [_ E]). injection E as <-. auto.
  - destruct (hasMeasurement _ _ _) in E; [injection E as <-; auto|]. apply check_Ok in E. destruct E as [_ E]. apply bind_Ok in E.
    destruct E as (g1 & E1 & E). assert (F : pg_odom g1 = pg_odom g) by (destruct (_ =? _)%N in E1; apply check_Ok in E1; destruct E1 as [_ E1]; injection E1 as <-; auto).
    injection E as <-. exact F.
Qed.
Lemma adds_no_odom ms : (forall m, In m ms -> ids_ok m /\ next_pose m = false) -> forall g g' : PoseGraph R, foldM addMeasurement g ms = Ok g' -> pg_odom g' = pg_odom g.
Proof.
  induction ms as [|m ms IH]; intros Q g g' E; cbn in E; [injection E as <-; auto|]. apply bind_Ok in E. destruct E as (g1 & E1 & E).
  destruct (Q m (or_introl eq_refl)). rewrite (IH (fun m' I => Q m' (or_intror I)) _ _ E). apply (add_no_odom g g1 m); auto.
Qed.

Theorem single_no_odometry : forall x ls qr svd dt St (L : PoseGraph R -> Lib R St) mudiv ds,
  (forall e, In e ds -> ids_ok e /\ next_pose e = false) ->
  (forall out, single_program x ls qr svd dt L ds <> Ok out) /\ (forall out, gnc_program qr svd dt L mudiv ds <> Ok out).
Proof.
  intros x ls qr svd dt St L mudiv ds Q. split; intros out E.
  - unfold single_program in E. cbv zeta in E.
    assert (S0 : fst (single_split ds) = []).
    { unfold single_split. match goal with |- fst (fold_left ?f _ _) = _ => assert (G : forall st, fst (fold_left f ds st) = fst st); [|apply G] end.
      revert Q. clear E. induction ds as [|e ds IH]; intros Q st; [reflexivity|]. cbn [fold_left]. rewrite IH by (intros; apply Q; right; auto).
      destruct (Q e (or_introl eq_refl)) as [(_ & _ & I1 & I2) Nx].
      assert (Z : (u32 (u32 (mp1 e) + 1) =? u32 (mp2 e))%N = false).
      { unfold u32, two32. rewrite (N.mod_small (mp1 e)), (N.mod_small (mp2 e)), N.mod_small by lia. rewrite N.eqb_sym. exact Nx. }
      rewrite Z. reflexivity. }
    destruct (single_split ds) as [o p]. cbn [fst] in S0. subst o.
    apply bind_Ok in E. destruct E as (g0 & _ & E). apply bind_Ok in E. destruct E as (g & _ & E).
    apply bind_Ok in E. destruct E as (a0 & E0 & E). apply bind_Ok in E. destruct E as (a1 & E1 & E). apply bind_Ok in E. destruct E as (a2 & E2 & E).
    apply bind_Ok in E. destruct E as (X & EX & _).
    destruct (ProofsAgent2.new_form _ _ _ _ E0) as (X0 & gg & YL0 & _ & EG & F0 & _).
    unfold ag_setMeasurements in E1. apply check_Ok in E1. destruct E1 as [_ E1]. apply check_Ok in E1. destruct E1 as [_ E1]. injection E1 as <-.
    unfold newPoseGraph in EG. apply check_Ok in EG. destruct EG as [_ EG].
    assert (Z : pg_n (a_pg a0) = 0%N /\ pg_odom (a_pg a0) = [] /\ pg_priv (a_pg a0) = [] /\ a_state a0 = WAIT_FOR_DATA).
    { rewrite F0. cbn. injection EG as <-. cbn. auto. }
    destruct Z as (Z1 & Z2 & Z3 & Z4).
    unfold ag_initialize in E2. rewrite Z4 in E2. cbn [state_eqb negb] in E2. cbv zeta in E2. rewrite ProofsAgent.endLoop_form in E2.
    change (pg_n (a_pg (sa_thread a0 false))) with (pg_n (a_pg a0)) in E2. rewrite Z1 in E2. cbn [N.eqb] in E2. injection E2 as <-.
    unfold ag_localPGO, localMeasurements in EX. change (a_pg (sa_thread a0 false)) with (a_pg a0) in EX. rewrite Z2, Z3 in EX. discriminate.
  - unfold gnc_program in E. apply check_Ok in E. destruct E as [_ E]. cbv zeta in E. apply bind_Ok in E. destruct E as (g0 & E0 & E). apply bind_Ok in E. destruct E as (g & E1 & E).
    unfold setMeasurements in E1. rewrite (adds_no_odom ds Q _ _ E1) in E. discriminate.
Qed.

(** ** Order *)
Lemma one_ok : dataset_ok 2 2 3 1 [ci01; ci12; ci02].
Proof.
  split; [split; lia|]. split; [vm_compute; discriminate|]. split; [auto|]. split; [lia|]. split.
  { cbn. repeat constructor; cbn; intuition discriminate. }
  split; [|reflexivity].
  intros e [<-|[<-|[<-|[]]]]; cbn; repeat split; auto; discriminate.
Qed.
Lemma one_fixed e : In e [ci01; ci12; ci02] -> mfixed e = false. Proof. intros [<-|[<-|[<-|[]]]]; reflexivity. Qed.
Lemma one_x : inverse_ok (x_minv rx) 2 /\ mrows (x_fixedY rx 2 2) = 2%nat /\ mcols (x_fixedY rx 2 2) = 2%nat.
Proof. split; [exact (rinv_ok 2)|]. split; reflexivity. Qed.

Lemma one_exact_run : exists B1 B2 B3 X, constructBMatrices (filter next_pose [ci01; ci12; ci02] ++ filter (fun e => negb (next_pose e)) [ci01; ci12; ci02]) = Ok (B1, B2, B3) /\
  solves_if_possible fqr (last_cols ((N.to_nat 3 - 1) * (2 * 2)) B3) /\ solves_if_possible fqr (last_cols (2 * (N.to_nat 3 - 1)) B1) /\
  single_program rx rls fqr csvd det2 glib [ci01; ci12; ci02] = Ok (X, 0).
Proof.
  destruct (b_defined [ci01; ci12; ci02] eq_refl) as (B1 & B2 & B3 & E). destruct (ci_lower _ B1 B2 B3 (or_intror eq_refl) E) as [L3 L1].
  pose proof (fqr_solves 8 _ L3) as Q3. pose proof (fqr_solves 4 _ L1) as Q1. destruct one_x as (X1 & X2 & X3).
  destruct (single_exact rx rls fqr csvd det2 _ glib 2 3 [ci01; ci12; ci02] ciR cit B1 B2 B3) as (X & EX & _); auto using one_ok, csvd_sized, csvd_rot, det2_ok, glib_descends.
  - reflexivity.
  - intros e He. split; [apply one_fixed; auto|]. apply (ci_sizes e He).
  - exact ci_rotation.
  - exact ci_consistent.
  - exists B1, B2, B3, X. auto.
Qed.

Theorem order_matters : exists x ls qr svd dt St (L : PoseGraph R -> Lib R St) mudiv ds ds' X,
  Permutation ds ds' /\ single_program x ls qr svd dt L ds = Ok (X, 0) /\
  single_program x ls qr svd dt L ds' = Abort /\ gnc_program qr svd dt L mudiv ds' = Abort /\ exists T v, chordal_program qr svd dt ds' = Ok (T, v).
Proof.
  destruct one_exact_run as (B1 & B2 & B3 & X & _ & _ & _ & E).
  exists rx, rls, fqr, csvd, det2, _, glib, ex_mudiv, [ci01; ci12; ci02], [ci12; ci01; ci02], X. split; [constructor|]. split; [exact E|]. split; [reflexivity|]. split; [reflexivity|].
  destruct (chordal_prints fqr csvd det2 2 3 [ci12; ci01; ci02]) as (T & _ & _ & EP).
  - apply ci_single; cbn; intuition.
  - reflexivity.
  - exact csvd_sized.
  - eauto.
Qed.

(** ** Repeated measurements *)
Definition rep_a : Meas R := mkMeas 0 0 0 2 (mident 2) (mlit 2 1 [[4]; [1]]) 5 1 false 1.
Definition rep_b : Meas R := mkMeas 0 0 0 2 (mident 2) (mlit 2 1 [[5]; [1]]) 5 1 false 1.
Definition rep_ds : list (Meas R) := [ci01; ci12; ci02; rep_a; rep_b].
Lemma rep_single : single_problem 0 2 3 rep_ds.
Proof.
  split; [auto|]. split; [split|].
  - intros m [<-|[<-|[<-|[<-|[<-|[]]]]]]; cbn; lia.
  - exists ci12. split; [cbn; auto|]. right. reflexivity.
  - split; [reflexivity|]. split; [reflexivity|]. intros m [<-|[<-|[<-|[<-|[<-|[]]]]]]; cbn; repeat split; discriminate.
Qed.
Theorem repeated_not_counted : exists ds, single_problem 0 2 3 ds /\ forall qr svd dt, SpecSolver.svd_sized svd 2 ->
  exists T v, chordal_program qr svd dt ds = Ok (T, v) /\ v < mx_cost 2 ds (pa_X T).
Proof.
  exists rep_ds. split; [exact rep_single|]. intros qr svd dt Hv. pose proof rep_single as (Hd & Hp & _ & _ & Hm).
  destruct (chordal_prints qr svd dt 2 3 rep_ds rep_single eq_refl Hv) as (T & ET & TT & EP).
  destruct (chordal_total qr svd dt 2 3 rep_ds Hd Hp eq_refl (fun m I => proj2 (proj2 (proj2 (Hm m I)))) Hv) as (T' & ET' & _ & I0).
  assert (T' = T) by congruence. subst T'. exists T, (mx_cost 2 (firsts rep_ds) (pa_X T)). split; [exact EP|].
  change (firsts rep_ds) with [ci01; ci12; ci02]. unfold mx_cost, rep_ds. rewrite !rsumL_cons.
  set (P0 := pose_blk 2 (pa_X T) 0) in *. set (P2 := pose_blk 2 (pa_X T) 2) in *.
  assert (NA : 0 <= edge_cost 2 2 rep_a P0 P2) by (apply edge_nonneg; repeat split; cbn; lra).
  assert (NB : 0 <= edge_cost 2 2 rep_b P0 P2) by (apply edge_nonneg; repeat split; cbn; lra).
  assert (NZ : ~ (edge_cost 2 2 rep_a P0 P2 <= 0 /\ edge_cost 2 2 rep_b P0 P2 <= 0)).
  { intros [A B]. destruct (edge_zero 2 2 rep_a P0 P2) as [_ A2]; try (cbn; lra). destruct (edge_zero 2 2 rep_b P0 P2) as [_ B2]; try (cbn; lra).
    specialize (A2 0%nat ltac:(lia)). specialize (B2 0%nat ltac:(lia)). cbn in A2, B2.
    assert (U : P0 0%nat 0%nat = 1 /\ P0 0%nat 1%nat = 0).
    { destruct TT as (_ & D & _). pose proof (I0 0%nat 0%nat ltac:(lia) ltac:(lia)) as J0. pose proof (I0 0%nat 1%nat ltac:(lia) ltac:(lia)) as J1. unfold pblk in J0, J1. rewrite D in J0, J1. split; [exact J0|exact J1]. }
    destruct U as [U0 U1]. rewrite U0, U1 in *. lra. }
  change (N.to_nat (mp1 rep_a)) with 0%nat. change (N.to_nat (mp2 rep_a)) with 2%nat. change (N.to_nat (mp1 rep_b)) with 0%nat. change (N.to_nat (mp2 rep_b)) with 2%nat.
  fold P0 P2. destruct (Rle_lt_dec (edge_cost 2 2 rep_a P0 P2) 0) as [LA|LA]; [destruct (Rle_lt_dec (edge_cost 2 2 rep_b P0 P2) 0) as [LB|LB]|]; [exfalso; apply NZ; auto| |]; rewrite ?rsumL_nil; lra.
Qed.

(** ** Cases *)
Lemma prog_case : dataset_ok 2 2 3 1 [ci01; ci12; ci02] /\ (3 * N.of_nat (2 * 2) < two32)%N /\
  (forall e, In e [ci01; ci12; ci02] -> mfixed e = false /\ 0 < mkappa e /\ 0 < mtau e) /\
  inverse_ok (x_minv rx) 2 /\ mrows (x_fixedY rx 2 2) = 2%nat /\ mcols (x_fixedY rx 2 2) = 2%nat /\
  SpecSolver.svd_sized csvd 2 /\ descent_solver glib false /\ div_ok ex_mudiv.
Proof.
  destruct one_x as (X1 & X2 & X3). split; [exact one_ok|]. split; [reflexivity|].
  split; [intros e He; split; [apply one_fixed; auto|]; apply (ci_sizes e He)|]. repeat (split; [auto using csvd_sized, glib_descends|]). exact (proj1 ex_mudiv_ok).
Qed.
Lemma prog_exact_case : (forall i, (i < N.to_nat 3)%nat -> rotation 2 (ciR i)) /\
  (forall e, In e [ci01; ci12; ci02] -> consistent 2 e (ciR (N.to_nat (mp1 e))) (cit (N.to_nat (mp1 e))) (ciR (N.to_nat (mp2 e))) (cit (N.to_nat (mp2 e)))) /\
  (forall M, rotation 2 M -> svd_at csvd 2 2 M) /\ (forall A, mrows A = 2%nat -> mcols A = 2%nat -> det2 A = det 2 A) /\
  (exists T, gnc_program fqr csvd det2 glib ex_mudiv [ci01; ci12; ci02] = Ok (T, [ci01; ci12; ci02])) /\
  exists T, chordal_program fqr csvd det2 [ci01; ci12; ci02] = Ok (T, 0).
Proof.
  split; [exact ci_rotation|]. split; [exact ci_consistent|]. split; [exact csvd_rot|]. split; [exact det2_ok|]. destruct prog_case as (P1 & P2 & P3 & P4 & P5 & P6 & P7 & P8 & P9). split.
  - destruct (gnc_exact fqr csvd det2 _ glib ex_mudiv 2 3 [ci01; ci12; ci02] ciR cit) as (T & E & _); auto; [intros e He; apply (P3 e He)|exact ci_rotation|exact ci_consistent|eauto].
  - destruct (b_defined [ci01; ci12; ci02] eq_refl) as (B1 & B2 & B3 & E). destruct (ci_lower _ B1 B2 B3 (or_intror eq_refl) E) as [L3 L1].
    destruct (chordal_prints_exact fqr csvd det2 2 3 [ci01; ci12; ci02] ciR cit B1 B2 B3) as (T & EP & _); auto using csvd_rot, det2_ok.
    + apply ci_single; cbn; auto.
    + intros e He. apply (P3 e He).
    + exact ci_rotation.
    + exact ci_consistent.
    + apply ci_reached; cbn; auto.
    + exact (fqr_solves 8 _ L3).
    + exact (fqr_solves 4 _ L1).
    + eauto.
Qed.
(** Connected, without odometry: 0 -> 2, 2 -> 1. *)
Definition back21 : Meas R := mkMeas 0 0 2 1 (mident 2) (mlit 2 1 [[1]; [0]]) 5 1 false 1.
Lemma star_case : (forall e, In e [ci02; back21] -> ids_ok e /\ next_pose e = false) /\ single_problem 0 2 3 [ci02; back21] /\
  (forall i, (i < 3)%N -> reached [ci02; back21] i).
Proof.
  split; [intros e [<-|[<-|[]]]; split; try reflexivity; cbn; repeat split; lia|]. split.
  - split; [auto|]. split; [split|].
    + intros m [<-|[<-|[]]]; cbn; lia.
    + exists ci02. split; [cbn; auto|]. right. reflexivity.
    + split; [reflexivity|]. split; [reflexivity|]. intros m [<-|[<-|[]]]; cbn; repeat split; discriminate.
  - assert (R0 : reached [ci02; back21] 0) by constructor. assert (R2 : reached [ci02; back21] 2) by (apply (reached_fwd _ ci02); [cbn; auto|exact R0]).
    assert (R1 : reached [ci02; back21] 1) by (apply (reached_fwd _ back21); [cbn; auto|exact R2]).
    intros i Hi. assert (i = 0 \/ i = 1 \/ i = 2)%N as [->|[->| ->]] by lia; auto.
Qed.

(** A solver that returns its start, and a loop closure off by 10. *)
Definition klib (_ : PoseGraph R) : Lib R (Mx R) := mkLib (fun _ V => V) madd (fun Y => Y) (fun s _ _ => s) (fun _ => true) (fun s => s) (fun _ => true) (fun _ V => V).
Lemma klib_state g Y st : solver_state (klib g) Y st -> st = Y.
Proof. induction 1; auto. Qed.
Lemma klib_descends b : descent_solver klib b.
Proof.
  intros g Y st d1 d2 HS _. apply klib_state in HS. subst st. cbn. split; [split; reflexivity|]. intros v v' [g1 A] [g2 B].
  assert (v' = v) by congruence. lra.
Qed.
Lemma klib_start qr svd dt ms p TI T : ro_rtr p = true -> (ro_iters p =? 1)%Z = false -> solvePGO qr svd dt klib ms p (Some TI) = Ok T -> T = TI.
Proof.
  intros RT IT E. unfold solvePGO in E. apply bind_Ok in E. destruct E as ((dd & nn) & _ & E). apply bind_Ok in E. destruct E as (m0 & _ & E).
  cbn [bind] in E. apply check_Ok in E. destruct E as [_ E]. apply check_Ok in E. destruct E as [_ E]. apply bind_Ok in E. destruct E as (g0 & _ & E).
  apply bind_Ok in E. destruct E as (g & _ & E). apply bind_Ok in E. destruct E as ((((g1 & X) & rr) & runs) & EO & E).
  assert (X = pa_X TI).
  { unfold optimize in EO. apply bind_Ok in EO. destruct EO as ((ga & f0) & _ & EO). apply bind_Ok in EO. destruct EO as ((gb & n0') & _ & EO).
    rewrite RT in EO. apply bind_Ok in EO. destruct EO as (((gc & X') & runs') & ET & EO). apply bind_Ok in EO. destruct EO as ((gd & f1) & _ & EO).
    apply bind_Ok in EO. destruct EO as ((ge & n1') & _ & EO). injection EO as <- <- <- <-.
    unfold trustRegion in ET. apply bind_Ok in ET. destruct ET as ((gf & gn) & _ & ET). destruct (nltb _ _) in ET; [injection ET as <- <- <-; reflexivity|].
    apply check_Ok in ET. destruct ET as [_ ET]. rewrite IT in ET. injection ET as <- <- <-. reflexivity. }
  subst X. unfold pa_setData in E. apply check_Ok in E. destruct E as [_ E]. apply check_Ok in E. destruct E as [_ E]. injection E as <-. destruct TI; reflexivity.
Qed.
Definition off02 : Meas R := mkMeas 0 0 0 2 (mident 2) (mlit 2 1 [[3]; [11]]) 5 1 false 1.
Definition off_ds : list (Meas R) := [ci01; ci12; off02].
Lemma off_ok : dataset_ok 2 2 3 1 off_ds.
Proof.
  split; [split; lia|]. split; [vm_compute; discriminate|]. split; [auto|]. split; [lia|]. split.
  { cbn. repeat constructor; cbn; intuition discriminate. }
  split; [|reflexivity].
  intros e [<-|[<-|[<-|[]]]]; cbn; repeat split; auto; discriminate.
Qed.
Lemma off_res : exists TO, odometryInitialization [ci01; ci12] None = Ok TO /\ pgo_res 2 TO ci01 = 0 /\ pgo_res 2 TO ci12 = 0 /\ pgo_res 2 TO off02 = 100.
Proof.
  destruct (odo_sublist 2 3 off_ds off_ok) as [CH _]. change (filter next_pose off_ds) with [ci01; ci12] in CH.
  destruct (ProofsOdom.odometry_chain 2 _ CH) as (TO & E & _ & I0 & LK). exists TO. split; [exact E|].
  pose proof (LK 0%nat ci01 eq_refl) as L0. pose proof (LK 1%nat ci12 eq_refl) as L1.
  assert (A : forall m A B, link 2 m A B -> edge_cost 2 2 (set_mweight 1 m) A B = 0).
  { intros m A B H. apply ProofsInit4.edge_cost_zero; [intros a c Ha; apply (H a Ha)|intros a Ha; apply (H a Ha)]. }
  split; [apply (A ci01 _ _ L0)|]. split; [apply (A ci12 _ _ L1)|].
  set (P0 := pblk TO 0) in *. set (P1 := pblk TO 1) in *. set (P2 := pblk TO 2) in *.
  pose proof (I0 0%nat 0%nat ltac:(lia) ltac:(lia)) as J00. pose proof (I0 0%nat 1%nat ltac:(lia) ltac:(lia)) as J01. pose proof (I0 0%nat 2%nat ltac:(lia) ltac:(lia)) as J02.
  pose proof (I0 1%nat 0%nat ltac:(lia) ltac:(lia)) as J10. pose proof (I0 1%nat 1%nat ltac:(lia) ltac:(lia)) as J11. pose proof (I0 1%nat 2%nat ltac:(lia) ltac:(lia)) as J12.
  unfold Det.idm in *. cbn in J00, J01, J02, J10, J11, J12.
  destruct (L0 0%nat ltac:(lia)) as [R0 t0]. destruct (L0 1%nat ltac:(lia)) as [R1 t1]. destruct (L1 0%nat ltac:(lia)) as [S0 u0]. destruct (L1 1%nat ltac:(lia)) as [S1 u1].
  pose proof (R0 0%nat ltac:(lia)) as R00. pose proof (R0 1%nat ltac:(lia)) as R01. pose proof (R1 0%nat ltac:(lia)) as R10. pose proof (R1 1%nat ltac:(lia)) as R11.
  pose proof (S0 0%nat ltac:(lia)) as S00. pose proof (S0 1%nat ltac:(lia)) as S01. pose proof (S1 0%nat ltac:(lia)) as S10. pose proof (S1 1%nat ltac:(lia)) as S11.
  clear R0 R1 S0 S1 L0 L1 LK I0. cbn in *.
  unfold pgo_res. change (N.to_nat (mp1 off02)) with 0%nat. change (N.to_nat (mp2 off02)) with 2%nat. fold P0 P2. unfold edge_cost, sq; cbn.
  rewrite S00, S01, S10, S11, u0, u1, R00, R01, R10, R11, t0, t1, J00, J01, J02, J10, J11, J12. lra.
Qed.
Lemma gnc_case : dataset_ok 2 2 3 1 off_ds /\ (forall e, In e off_ds -> 0 <= mkappa e /\ 0 <= mtau e) /\ descent_solver klib false /\ div_ok ex_mudiv /\
  exists TO ms' k, gnc_program fqr csvd det2 klib ex_mudiv off_ds = Ok (TO, ms') /\ (0 < k)%nat /\
    gnc_rounds (fun ms => solvePGO fqr csvd det2 klib ms (mkRO true 1 (1 / 1000) true 50 100) (Some TO)) 2 5 (1 / 7) (14 / 10) off_ds k ms'.
Proof.
  assert (K : forall e, In e off_ds -> 0 <= mkappa e /\ 0 <= mtau e) by (intros e [<-|[<-|[<-|[]]]]; cbn; lra).
  split; [exact off_ok|]. split; [exact K|]. split; [apply klib_descends|]. split; [apply ex_mudiv_ok|].
  destruct (gnc_runs fqr csvd det2 _ klib ex_mudiv 2 3 off_ds off_ok K (klib_descends false) (proj1 ex_mudiv_ok)) as (TO & T0 & T & ms' & EO & _ & EG & E0 & ET & _ & U).
  apply klib_start in E0; [|reflexivity|reflexivity]. apply klib_start in ET; [|reflexivity|reflexivity]. subst T0 T.
  destruct off_res as (TO' & EO' & V1 & V2 & V3). change (filter next_pose off_ds) with [ci01; ci12] in EO. assert (TO' = TO) by congruence. subst TO'.
  destruct (U off02) as (k & K1 & K2 & K3).
  - cbn; auto.
  - intros m' [<-|[<-|[<-|[]]]]; lra.
  - lra.
  - rewrite V3 in K2. replace (25 / (2 * 100 - 25)) with (1 / 7) in K2 by field. exists TO, ms', k. split; [exact EG|]. split; [|exact K2].
    destruct K3 as [->|[K3 _]]; lia.
Qed.
