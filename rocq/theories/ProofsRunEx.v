(** A dataset for the example program (C56), and one it cannot start with. *)
From Coq Require Import List NArith ZArith Bool Arith Lia Reals Lra Psatz.
From Verif Require Import Base Num RSum Det MatR ModelTypes ModelPoseGraph ModelPoses ModelProblem ModelRobust ModelSolver ModelChordal ModelOptimizer ModelInit ModelAgent ModelExample ModelExampleRun
  SpecPoseGraph SpecPGHist SpecCost SpecSolver SpecOptimizer SpecInit SpecAgent SpecFrames SpecExample SpecRun ProofsPoseGraph ProofsSolver ProofsSolverEx ProofsChordal ProofsInit ProofsInit2 ProofsInitEx ProofsFramesEx ProofsRun8.
Import ListNotations.
Local Open Scope R_scope.

(** Four poses for two robots: odometry and a loop closure. *)
Definition rnR (i : nat) : Mx R := match i with 1%nat => mident 2 | _ => ciJ end.
Definition rnt (i : nat) : Mx R := match i with 3%nat => mlit 2 1 [[2]; [7]] | _ => cit i end.
Definition rn23 : Meas R := mkMeas 0 0 2 3 (mident 2) (mlit 2 1 [[2]; [-2]]) 4 9 false 1.
Definition rn03 : Meas R := mkMeas 0 0 0 3 (mident 2) (mlit 2 1 [[5]; [-1]]) 5 1 false 1.
Definition rn_ds : list (Meas R) := [ci01; ci12; rn23; rn03].

Lemma rn_ok : dataset_ok 2 3 4 2 rn_ds.
Proof.
  split; [split; lia|]. split; [vm_compute; discriminate|]. split; [auto|]. split; [lia|]. split.
  { cbn. repeat constructor; cbn; intuition discriminate. }
  split; [|reflexivity].
  intros e [<-|[<-|[<-|[<-|[]]]]]; cbn; repeat split; auto; discriminate.
Qed.
Lemma rn_rotation i : (i < 4)%nat -> rotation 2 (rnR i).
Proof. intros Hi. destruct i as [|[|[|[|i]]]]; try lia; [exact (ci_rotation 0 ltac:(lia))|exact (ci_rotation 1 ltac:(lia))|exact (ci_rotation 2 ltac:(lia))|exact (ci_rotation 2 ltac:(lia))]. Qed.
Lemma rn_c23 : consistent 2 rn23 (rnR 2) (rnt 2) (rnR 3) (rnt 3). Proof. by_entries. Qed.
Lemma rn_c03 : consistent 2 rn03 (rnR 0) (rnt 0) (rnR 3) (rnt 3). Proof. by_entries. Qed.
Lemma rn_consistent m : In m rn_ds ->
  consistent 2 m (rnR (N.to_nat (mp1 m))) (rnt (N.to_nat (mp1 m))) (rnR (N.to_nat (mp2 m))) (rnt (N.to_nat (mp2 m))).
Proof. intros [<-|[<-|[<-|[<-|[]]]]]; [exact ci_c01|exact ci_c12|exact rn_c23|exact rn_c03]. Qed.

Ltac ev3 := cbn; change (Pos.to_nat 1) with 1%nat; change (Pos.to_nat 2) with 2%nat; change (Pos.to_nat 3) with 3%nat; cbn.
Lemma rn_lower B1 B2 B3 : constructBMatrices rn_ds = Ok (B1, B2, B3) -> lower 12 (last_cols 12 B3) /\ lower 6 (last_cols 6 B1).
Proof.
  intros E. pose proof (b_sizes rn_ds B1 B2 B3 E) as (S1 & S2 & _ & _ & S5 & S6).
  assert (K : mcols B3 = 16%nat /\ (12 <= mrows B3)%nat /\ mcols B1 = 8%nat /\ (6 <= mrows B1)%nat).
  { cbn in S1, S2, S5, S6; rewrite S1, S2, S5, S6; lia. }
  destruct K as (K1 & K2 & K3 & K4).
  unfold constructBMatrices in E. apply require_Ok in E. destruct E as [_ E].
  apply bind_Ok in E. destruct E as (C1 & E1 & E). apply bind_Ok in E. destruct E as (C2 & E2 & E).
  apply bind_Ok in E. destruct E as (C3 & E3 & E). inversion E; subst C1 C2 C3. clear E E2.
  destruct (from_triplets_Ok _ _ _ _ E1) as (_ & _ & _ & V1). destruct (from_triplets_Ok _ _ _ _ E3) as (_ & _ & _ & V3).
  assert (P4 : 0 < sqrt 4) by (apply sqrt_lt_R0; lra). assert (P9 : 0 < sqrt 9) by (apply sqrt_lt_R0; lra).
  assert (P2 : 0 < sqrt 2) by (apply sqrt_lt_R0; lra).
  split; (split; [reflexivity|split; [assumption|split]]); unfold last_cols; cbn [Num.mat mrows mcols].
  - intros i Hi. rewrite K1, V3. do 12 (destruct i as [|i]; [ev3; apply Rgt_not_eq; lra|]); lia.
  - intros i j Hij Hj. rewrite K1, V3. do 12 (destruct j as [|j]; [do 12 (destruct i as [|i]; [try lia; ev3; lra|]); lia|]); lia.
  - intros i Hi. rewrite K3, V1. do 6 (destruct i as [|i]; [ev3; apply Rgt_not_eq; lra|]); lia.
  - intros i j Hij Hj. rewrite K3, V1. do 6 (destruct j as [|j]; [do 6 (destruct i as [|i]; [try lia; ev3; lra|]); lia|]); lia.
Qed.

(** The wrapper over the gradient steps of C54. *)
Definition rn_opt (i : N) : Optimizer R := fun g X =>
  (None, match optimize (glib g) ci_params g X with Ok (_, X', _, _) => X' | _ => X end).
Lemma rn_wrapper i : is_wrapper glib ci_params (rn_opt i).
Proof. intros g X g' X' rr runs E. cbn. rewrite E. reflexivity. Qed.
Lemma rn_opt_ok i : opt_sized (rn_opt i) /\ descending (rn_opt i).
Proof. exact (proj2 (wrapper_ok _ glib ci_params (rn_opt i) eq_refl (glib_descends _) (rn_wrapper i))). Qed.

Definition rn_lib : Lib R (Mx R * Mx R) := mkLib (fun _ V => V) madd (fun Y => (Y, Y)) (fun s _ _ => s) (fun _ => true) snd (fun _ => true) (fun _ V => V).
Definition rn_flat : PoseArr R := mkPA 2 2 4 (mlit 2 12 [[1; 0; 0; 1; 0; 0; 1; 0; 0; 1; 0; 0]; [0; 1; 0; 0; 1; 0; 0; 1; 0; 0; 1; 0]]).
Definition rn_Y : Mx R := x_fixedY rx 2 3.

Lemma rn_rx : inverse_ok (x_minv rx) 2 /\ mrows rn_Y = 3%nat /\ mcols rn_Y = 2%nat /\ SpecRun.svd_sized rx 3 2.
Proof. split; [exact (rinv_ok 2)|]. split; [reflexivity|]. split; [reflexivity|]. intros M H1 H2. cbn. auto. Qed.

Lemma rn_run_case : dataset_ok 2 3 4 2 rn_ds /\ inverse_ok (x_minv rx) 2 /\ mrows rn_Y = 3%nat /\ mcols rn_Y = 2%nat /\ SpecRun.svd_sized rx 3 2 /\
  (forall i, opt_sized (rn_opt i) /\ descending (rn_opt i)) /\ whole 2 3 4 (mzero 3 12) /\
  mrows (pa_X rn_flat) = 2%nat /\ mcols (pa_X rn_flat) = 12%nat /\ 0 < dataset_cost 3 2 rn_ds (mmul rn_Y (pa_X rn_flat)) /\
  exists ags ln out, example rx rls rn_lib (fun _ => Ok rn_flat) rn_opt 3 true 1000 (mzero 3 12) 2 4 rn_ds = Ok (Some (ags, ln :: out)) /\ ln_robot ln = 0%N.
Proof.
  destruct rn_rx as (A & B & C & D). split; [exact rn_ok|]. repeat (split; [assumption|]). split; [exact rn_opt_ok|].
  split; [split; reflexivity|]. split; [reflexivity|]. split; [reflexivity|]. split.
  { unfold dataset_cost, rn_ds. cbn [rsumL]. unfold edge_cost, sq; cbn. change (Pos.to_nat 1) with 1%nat. change (Pos.to_nat 2) with 2%nat. change (Pos.to_nat 3) with 3%nat. cbn. lra. }
  destruct (example_runs rx rls _ rn_lib (fun _ => Ok rn_flat) rn_opt 2 3 4 2 rn_ds true 1000 (mzero 3 12) rn_flat) as (ags & out & Xs & Ds & E & P & _); auto.
  - exact rn_ok.
  - intros i. apply rn_opt_ok.
  - reflexivity.
  - split; reflexivity.
  - destruct P as [(_ & _ & Q) _ F _ S]. destruct out as [|ln out].
    + destruct S as (ln & X & _); [cbn; lia|discriminate X].
    + exists ags, ln, out. split; [exact E|]. apply F. reflexivity.
Qed.

Lemma rn_exact_case : (4 * N.of_nat (2 * 2) < two32)%N /\ (forall e, In e rn_ds -> 0 < mkappa e /\ 0 < mtau e) /\
  (forall i, (i < N.to_nat 4)%nat -> rotation 2 (rnR i)) /\
  (forall e, In e rn_ds -> consistent 2 e (rnR (N.to_nat (mp1 e))) (rnt (N.to_nat (mp1 e))) (rnR (N.to_nat (mp2 e))) (rnt (N.to_nat (mp2 e)))) /\
  SpecSolver.svd_sized csvd 2 /\ (forall M, rotation 2 M -> svd_at csvd 2 2 M) /\ (forall A, mrows A = 2%nat -> mcols A = 2%nat -> det2 A = det 2 A) /\
  exists B1 B2 B3, constructBMatrices rn_ds = Ok (B1, B2, B3) /\
    solves_if_possible fqr (last_cols ((N.to_nat 4 - 1) * (2 * 2)) B3) /\ solves_if_possible fqr (last_cols (2 * (N.to_nat 4 - 1)) B1) /\
  exists ags ln out, example rx rls rn_lib (chordalInitialization fqr csvd det2) rn_opt 3 false 1000 (mzero 3 12) 2 4 rn_ds = Ok (Some (ags, ln :: out)) /\ ln_cost ln = 0.
Proof.
  assert (K : forall e, In e rn_ds -> 0 < mkappa e /\ 0 < mtau e) by (intros e [<-|[<-|[<-|[<-|[]]]]]; cbn; lra).
  split; [reflexivity|]. split; [exact K|]. split; [exact rn_rotation|]. split; [exact rn_consistent|].
  split; [exact csvd_sized|]. split; [exact csvd_rot|]. split; [exact det2_ok|].
  destruct (b_defined rn_ds eq_refl) as (B1 & B2 & B3 & E). destruct (rn_lower B1 B2 B3 E) as [L3 L1].
  pose proof (fqr_solves 12 _ L3) as Q3. pose proof (fqr_solves 6 _ L1) as Q1.
  exists B1, B2, B3. split; [exact E|]. split; [exact Q3|]. split; [exact Q1|].
  destruct rn_rx as (A & B & C & D).
  destruct (example_exact rx rls _ rn_lib fqr csvd det2 rn_opt 2 3 4 2 rn_ds 1000 (mzero 3 12) rnR rnt B1 B2 B3) as (ags & out & EX & Z);
    auto using rn_ok, rn_opt_ok, rn_rotation, rn_consistent, csvd_sized, csvd_rot, det2_ok; try reflexivity; try (split; reflexivity).
  assert (O : out <> []).
  { intros ->. destruct (chordal_exact fqr csvd det2 2 4 rn_ds rnR rnt B1 B2 B3) as (T & ET & (_ & _ & _ & T1 & T2) & _);
      auto using rn_rotation, rn_consistent, csvd_sized, csvd_rot, det2_ok.
    - split; [intros m [<-|[<-|[<-|[<-|[]]]]]; cbn; lia|]. exists rn03. split; [cbn; auto|]. right. reflexivity.
    - reflexivity.
    - intros m [<-|[<-|[<-|[<-|[]]]]]; cbn; repeat split; lra.
    - apply (ds_reached 2 3 4 2 rn_ds rn_ok).
    - destruct (example_runs rx rls _ rn_lib (chordalInitialization fqr csvd det2) rn_opt 2 3 4 2 rn_ds false 1000 (mzero 3 12) T) as (ags' & out & Xs & Ds & E' & P & _);
        auto using rn_ok; try reflexivity; try (split; reflexivity).
      + intros i. apply rn_opt_ok.
      + rewrite EX in E'. injection E' as _ <-. destruct P as [_ _ _ _ S]. destruct S as (ln & X & _); [cbn; lia|discriminate X]. }
  destruct out as [|ln out]; [congruence|]. exists ags, ln, out. split; [exact EX|]. apply Z. left. reflexivity.
Qed.

(** Two poses for two robots. *)
Definition rn_two : PoseArr R := mkPA 2 2 2 (mlit 2 6 [[1; 0; 0; 1; 0; 0]; [0; 1; 0; 0; 1; 0]]).
Lemma rn_short_case : sizes_ok 2 2 /\ Forall (edge_in 2) [ci01] /\ (2 / 2 = 1)%N /\
  example rx rls rn_lib (fun _ => Ok rn_two) rn_opt 3 true 1000 (mzero 3 6) 2 2 [ci01] = Abort.
Proof.
  split; [split; lia|]. split; [constructor; [split; reflexivity|constructor]|]. split; [reflexivity|].
  reflexivity.
Qed.
