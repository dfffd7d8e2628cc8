(** Examples for chordal initialisation (C53). *)
From Coq Require Import List NArith ZArith Bool Arith Lia Reals Lra Psatz.
From Verif Require Import Base Num RSum Det MatR ModelTypes ModelPoseGraph ModelPoses ModelProblem ModelSolver ModelChordal ModelOptimizer ModelInit
  SpecPoseGraph SpecPGHist SpecCost SpecSolver SpecOptimizer SpecInit ProofsPoseGraph ProofsSolver ProofsSolverEx ProofsChordal ProofsInit ProofsInit2 ProofsInit3 ProofsInit4.
Import ListNotations.
Local Open Scope R_scope.

(** Forward substitution, a solver for systems whose first rows form a lower
    triangular matrix. *)
Fixpoint fsub (B : Mx R) (c : nat -> R) (k : nat) : nat -> R :=
  match k with
  | O => fun _ => 0
  | S k' => let x := fsub B c k' in
      fun j => if Nat.eqb j k' then (c k' - rsum k' (fun i => B k' i * x i)) / B k' k' else x j
  end.
Definition lower (N : nat) (B : Mx R) : Prop := mcols B = N /\ (N <= mrows B)%nat /\
  (forall i, (i < N)%nat -> B i i <> 0) /\ forall i j, (i < j)%nat -> (j < N)%nat -> B i j = 0.

Lemma fsub_stable B c k : forall l j, (j < k)%nat -> (k <= l)%nat -> fsub B c l j = fsub B c k j.
Proof.
  intros l. induction l as [|l IH]; intros j Hj Hk; [lia|]. destruct (Nat.eq_dec k (S l)) as [->|N]; auto.
  cbn [fsub]. rewrite (proj2 (Nat.eqb_neq j l)) by lia. apply IH; lia.
Qed.

Lemma lower_row N B v i : lower N B -> (i < N)%nat -> mulv B v i = rsum i (fun j => B i j * v j) + B i i * v i.
Proof.
  intros (HC & _ & _ & HZ) Hi. unfold mulv. rewrite HC. replace N with (S i + (N - S i))%nat at 1 by lia.
  rewrite rsum_plus, rsum_S. rewrite (rsum_zero' (N - S i)); [ring|]. intros k Hk. rewrite HZ by lia. ring.
Qed.

Lemma fsub_row N B c i : lower N B -> (i < N)%nat -> mulv B (fsub B c N) i = c i.
Proof.
  intros HL Hi. rewrite (lower_row N) by auto. destruct HL as (_ & _ & HN & _).
  rewrite (fsub_stable B c (S i)) by lia. cbn [fsub]. rewrite Nat.eqb_refl.
  rewrite (rsum_ext i (fun j => B i j * fsub B c N j) (fun j => B i j * fsub B c i j)).
  2:{ intros j Hj. rewrite (fsub_stable B c i N j) by lia. reflexivity. }
  specialize (HN i Hi). field. auto.
Qed.

Lemma lower_unique N B v w : lower N B -> (forall i, (i < N)%nat -> mulv B v i = mulv B w i) -> forall j, (j < N)%nat -> v j = w j.
Proof.
  intros HL H. cut (forall k, (k <= N)%nat -> forall j, (j < k)%nat -> v j = w j); [intros A j Hj; apply (A N); auto|].
  induction k as [|k IH]; intros Hk j Hj; [lia|]. destruct (Nat.eq_dec j k) as [->|Nj]; [|apply IH; lia].
  specialize (H k ltac:(lia)). rewrite !(lower_row N) in H by (auto; lia).
  rewrite (rsum_ext k (fun j => B k j * v j) (fun j => B k j * w j)) in H by (intros; rewrite IH; auto; lia).
  destruct HL as (_ & _ & HN & _). specialize (HN k ltac:(lia)). apply Rplus_eq_reg_l in H. apply Rmult_eq_reg_l in H; auto.
Qed.

Definition fqr (B : Mx R) (c : nat -> R) : nat -> R := fsub B c (mcols B).

Lemma fqr_solves N B : lower N B -> solves_if_possible fqr B.
Proof.
  intros HL c (y & Hy) i Hi. pose proof HL as (HC & HR & _). rewrite <- Hy by auto. apply mulv_ext. rewrite HC. unfold fqr. rewrite HC.
  apply (lower_unique N B); auto. intros k Hk. rewrite (fsub_row N) by auto. symmetry. apply Hy. lia.
Qed.
Lemma fqr_least N B c : lower N B -> mrows B = N -> least_squares B c (fqr B c).
Proof.
  intros HL HR y. pose proof HL as (HC & _). unfold residual2. rewrite (rsum_zero' (mrows B) (fun i => sq (mulv B (fqr B c) i - c i))).
  - apply rsum_nonneg. intros i Hi. apply Rle_0_sqr.
  - intros i Hi. unfold fqr. rewrite HC, (fsub_row N) by (auto; lia). unfold sq. ring.
Qed.

(** Three poses in the plane and the measurements between them. *)
Definition ciJ : Mx R := mlit 2 2 [[0; -1]; [1; 0]].
Definition ciR (i : nat) : Mx R := match i with 1%nat => mident 2 | _ => ciJ end.
Definition cit (i : nat) : Mx R := match i with 0%nat => mlit 2 1 [[1]; [2]] | 1%nat => mlit 2 1 [[3]; [4]] | _ => mlit 2 1 [[0]; [5]] end.
Definition ci01 : Meas R := mkMeas 0 0 0 1 (mlit 2 2 [[0; 1]; [-1; 0]]) (mlit 2 1 [[2]; [-2]]) 4 9 false 1.
Definition ci12 : Meas R := mkMeas 0 0 1 2 (mlit 2 2 [[0; -1]; [1; 0]]) (mlit 2 1 [[-3]; [1]]) 4 2 false 1.
Definition ci02 : Meas R := mkMeas 0 0 0 2 (mident 2) (mlit 2 1 [[3]; [1]]) 5 1 false 1.

Lemma ci_sizes m : In m [ci01; ci12; ci02] -> meas_sized 2 m /\ 0 < mkappa m /\ 0 < mtau m.
Proof. intros [<-|[<-|[<-|[]]]]; cbn; repeat split; lra. Qed.
Lemma ci_count ms : In ci12 ms -> (forall m, In m ms -> In m [ci01; ci12; ci02]) -> pose_count ms (N.of_nat 3).
Proof.
  intros H1 H2. split.
  - intros m Hm. destruct (H2 m Hm) as [<-|[<-|[<-|[]]]]; cbn; lia.
  - exists ci12. split; [exact H1|]. right. reflexivity.
Qed.
Lemma ci_reached ms : In ci01 ms -> In ci12 ms -> forall i, (i < N.of_nat 3)%N -> reached ms i.
Proof.
  intros H1 H2 i Hi. assert (R0 : reached ms 0) by constructor. assert (R1 : reached ms 1) by (apply (reached_fwd ms ci01); auto).
  assert (R2 : reached ms 2) by (apply (reached_fwd ms ci12); auto). change (N.of_nat 3) with 3%N in Hi.
  assert (i = 0 \/ i = 1 \/ i = 2)%N as [-> |[-> | ->]] by lia; auto.
Qed.
Lemma ci_rotation i : (i < 3)%nat -> rotation 2 (ciR i).
Proof.
  intros Hi. destruct i as [|[|[|i]]]; [| | |lia]; (split; [reflexivity|split; [reflexivity|split]]);
    try (intros b c Hb Hc; destruct b as [|[|b]]; destruct c as [|[|c]]; try lia; cbn; lra);
    cbv [det sgn minor skip nsum]; cbn; lra.
Qed.
Ltac by_entries := split; [intros a c Ha Hc; destruct a as [|[|a]]; destruct c as [|[|c]]; try lia; cbn; lra|
    intros a Ha; destruct a as [|[|a]]; try lia; cbn; lra].
Lemma ci_c01 : consistent 2 ci01 (ciR 0) (cit 0) (ciR 1) (cit 1). Proof. by_entries. Qed.
Lemma ci_c12 : consistent 2 ci12 (ciR 1) (cit 1) (ciR 2) (cit 2). Proof. by_entries. Qed.
Lemma ci_c02 : consistent 2 ci02 (ciR 0) (cit 0) (ciR 2) (cit 2). Proof. by_entries. Qed.
Lemma ci_consistent m : In m [ci01; ci12; ci02] ->
  consistent 2 m (ciR (N.to_nat (mp1 m))) (cit (N.to_nat (mp1 m))) (ciR (N.to_nat (mp2 m))) (cit (N.to_nat (mp2 m))).
Proof. intros [<-|[<-|[<-|[]]]]; [exact ci_c01|exact ci_c12|exact ci_c02]. Qed.

Definition csvd (M : Mx R) : Mx R * Mx R := (M, mident 2).
Lemma csvd_sized : svd_sized csvd 2.
Proof. intros M HM. split; auto. split; reflexivity. Qed.
Lemma csvd_rot M : rotation 2 M -> svd_at csvd 2 2 M.
Proof.
  intros (A & B & HO & _). unfold svd_at, is_svd. cbn [fst snd csvd]. repeat (split; auto).
  - intros b c Hb Hc. destruct b as [|[|b]]; destruct c as [|[|c]]; try lia; cbn; lra.
  - exists (fun _ => 1). split; [intros; lra|]. split; [intros; lra|]. intros i j Hi Hj. destruct j as [|[|j]]; try lia; cbn; lra.
Qed.

Ltac ev := cbn; change (Pos.to_nat 1) with 1%nat; change (Pos.to_nat 2) with 2%nat; cbn.
Lemma ci_lower ms B1 B2 B3 : ms = [ci01; ci12] \/ ms = [ci01; ci12; ci02] -> constructBMatrices ms = Ok (B1, B2, B3) ->
  lower 8 (last_cols 8 B3) /\ lower 4 (last_cols 4 B1).
Proof.
  intros Hms E. pose proof (b_sizes ms B1 B2 B3 E) as (S1 & S2 & _ & _ & S5 & S6).
  assert (K : mcols B3 = 12%nat /\ (8 <= mrows B3)%nat /\ mcols B1 = 6%nat /\ (4 <= mrows B1)%nat).
  { destruct Hms as [-> | ->]; cbn in S1, S2, S5, S6; rewrite S1, S2, S5, S6; lia. }
  destruct K as (K1 & K2 & K3 & K4).
  unfold constructBMatrices in E. apply require_Ok in E. destruct E as [_ E].
  apply bind_Ok in E. destruct E as (C1 & E1 & E). apply bind_Ok in E. destruct E as (C2 & E2 & E).
  apply bind_Ok in E. destruct E as (C3 & E3 & E). inversion E; subst C1 C2 C3. clear E E2.
  destruct (from_triplets_Ok _ _ _ _ E1) as (_ & _ & _ & V1). destruct (from_triplets_Ok _ _ _ _ E3) as (_ & _ & _ & V3).
  assert (P4 : 0 < sqrt 4) by (apply sqrt_lt_R0; lra). assert (P9 : 0 < sqrt 9) by (apply sqrt_lt_R0; lra).
  assert (P2 : 0 < sqrt 2) by (apply sqrt_lt_R0; lra).
  split; (split; [reflexivity|split; [assumption|split]]); unfold last_cols; cbn [Num.mat mrows mcols].
  - intros i Hi. rewrite K1, V3. destruct Hms as [-> | ->]; do 8 (destruct i as [|i]; [ev; apply Rgt_not_eq; lra|]); lia.
  - intros i j Hij Hj. rewrite K1, V3. destruct Hms as [-> | ->]; do 8 (destruct j as [|j]; [do 8 (destruct i as [|i]; [try lia; ev; lra|]); lia|]); lia.
  - intros i Hi. rewrite K3, V1. destruct Hms as [-> | ->]; do 4 (destruct i as [|i]; [ev; apply Rgt_not_eq; lra|]); lia.
  - intros i j Hij Hj. rewrite K3, V1. destruct Hms as [-> | ->]; do 4 (destruct j as [|j]; [do 4 (destruct i as [|i]; [try lia; ev; lra|]); lia|]); lia.
Qed.

Lemma ci_exact_case : exists B1 B2 B3 T, constructBMatrices [ci01; ci12; ci02] = Ok (B1, B2, B3) /\
  solves_if_possible fqr (last_cols 8 B3) /\ solves_if_possible fqr (last_cols 4 B1) /\
  (forall M, rotation 2 M -> svd_at csvd 2 2 M) /\
  chordalInitialization fqr csvd det2 [ci01; ci12; ci02] = Ok T /\
  pblk T 1 0%nat 1%nat = 1 /\ pblk T 1 1%nat 0%nat = -1 /\ pblk T 1 0%nat 2%nat = 2 /\ pblk T 1 1%nat 2%nat = -2 /\
  pblk T 2 0%nat 2%nat = 3 /\ pblk T 2 1%nat 2%nat = 1.
Proof.
  destruct (b_defined [ci01; ci12; ci02] eq_refl) as (B1 & B2 & B3 & E).
  destruct (ci_lower _ B1 B2 B3 (or_intror eq_refl) E) as [L3 L1].
  pose proof (fqr_solves 8 _ L3) as Q3. pose proof (fqr_solves 4 _ L1) as Q1.
  destruct (chordal_exact fqr csvd det2 2 3 [ci01; ci12; ci02] ciR cit B1 B2 B3) as (T & ET & _ & HT); auto.
  - apply ci_count; cbn; auto.
  - reflexivity.
  - exact ci_sizes.
  - exact ci_rotation.
  - exact ci_consistent.
  - apply ci_reached; cbn; auto.
  - exact csvd_sized.
  - exact csvd_rot.
  - exact det2_ok.
  - exists B1, B2, B3, T. split; [exact E|]. split; [exact Q3|]. split; [exact Q1|]. split; [exact csvd_rot|]. split; [exact ET|].
    repeat split.
    + rewrite (proj1 (HT 1%nat 0%nat ltac:(lia) ltac:(lia)) 1%nat ltac:(lia)). cbn. lra.
    + rewrite (proj1 (HT 1%nat 1%nat ltac:(lia) ltac:(lia)) 0%nat ltac:(lia)). cbn. lra.
    + rewrite (proj2 (HT 1%nat 0%nat ltac:(lia) ltac:(lia))). cbn. lra.
    + rewrite (proj2 (HT 1%nat 1%nat ltac:(lia) ltac:(lia))). cbn. lra.
    + rewrite (proj2 (HT 2%nat 0%nat ltac:(lia) ltac:(lia))). cbn. lra.
    + rewrite (proj2 (HT 2%nat 1%nat ltac:(lia) ltac:(lia))). cbn. lra.
Qed.

Lemma ci_relaxation_case : pose_count [ci01; ci12] (N.of_nat 3) /\
  (forall m, In m [ci01; ci12] -> meas_sized 2 m /\ 0 <= mkappa m /\ 0 <= mtau m) /\
  svd_sized csvd 2 /\ (forall A : Mx R, mrows A = 2%nat -> mcols A = 2%nat -> det2 A = det 2 A) /\
  exists B1 B2 B3, constructBMatrices [ci01; ci12] = Ok (B1, B2, B3) /\
  (forall c, least_squares (last_cols 8 B3) c (fqr (last_cols 8 B3) c)) /\
  (forall c, least_squares (last_cols 4 B1) c (fqr (last_cols 4 B1) c)).
Proof.
  split; [apply ci_count; cbn; intuition|]. split.
  { intros m Hm. destruct (ci_sizes m) as (A & B & C); [cbn in *; intuition|]. split; auto. split; lra. }
  split; [exact csvd_sized|]. split; [exact det2_ok|].
  destruct (b_defined [ci01; ci12] eq_refl) as (B1 & B2 & B3 & E).
  destruct (ci_lower _ B1 B2 B3 (or_introl eq_refl) E) as [L3 L1].
  pose proof (b_sizes _ B1 B2 B3 E) as (S1 & S2 & S3 & S4 & S5 & S6). cbn in S1, S2, S5, S6.
  exists B1, B2, B3. split; [exact E|]. split; intros c.
  - apply (fqr_least 8); auto.
  - apply (fqr_least 4); auto.
Qed.

(** A solver for C54: gradient steps, kept while they do not cost more than the
    start. *)
Definition gstep (g : PoseGraph R) (X : Mx R) : Mx R :=
  match qp_grad g X with Ok (_, E) => mkMx (mrows X) (mcols X) (fun i j => X i j - E i j / 32) | _ => X end.
Definition gkeep (g : PoseGraph R) (Y X : Mx R) : bool :=
  match qp_f g Y, qp_f g X with Ok (_, v), Ok (_, w) => if Rle_dec w v then true else false | _, _ => false end.
Definition glib (g : PoseGraph R) : Lib R (Mx R * Mx R) := mkLib (fun _ V => V) madd
  (fun Y => (Y, Y)) (fun s _ _ => if gkeep g (fst s) (gstep g (snd s)) then (fst s, gstep g (snd s)) else s) (fun _ => true) snd
  (fun _ => true) (fun _ V => V).
Lemma glib_descends b : descent_solver glib b.
Proof.
  intros g Y st d1 d2 HS _.
  assert (I : forall st, solver_state (glib g) Y st -> fst st = Y /\ sized (mrows Y) (mcols Y) (snd st) /\ (snd st = Y \/ gkeep g Y (snd st) = true)).
  { induction 1 as [|s e1 e2 H IH].
    - cbn. repeat split; auto.
    - destruct IH as (A & B & C). cbn. destruct (gkeep g (fst s) (gstep g (snd s))) eqn:K; [|auto]. cbn. rewrite A in *. split; auto. split; auto.
      destruct B as [B1 B2]. unfold gstep. destruct (qp_grad g (snd s)) as [[g' E]| |]; cbn; split; auto. }
  destruct (I _ (ss_run _ _ st d1 d2 HS)) as (_ & A & B). cbv zeta. change (l_xopt (glib g)) with (@snd (Mx R) (Mx R)).
  set (X := snd (l_run (glib g) st d1 d2)) in *. split; [exact A|].
  intros v v' (g1 & E1) (g2 & E2). destruct B as [B|B].
  - rewrite B in E2. rewrite E1 in E2. injection E2 as _ <-. lra.
  - unfold gkeep in B. rewrite E1, E2 in B. destruct (Rle_dec v' v); [auto|discriminate].
Qed.
Lemma ci_single ms : In ci12 ms -> (forall m, In m ms -> In m [ci01; ci12; ci02]) -> single_problem 0 2 3 ms.
Proof.
  intros A B. split; [auto|]. split; [apply ci_count; auto|]. split; [reflexivity|]. split; [reflexivity|].
  intros m Hm. destruct (ci_sizes m (B m Hm)) as (S & _). destruct (B m Hm) as [<-|[<-|[<-|[]]]]; repeat split; auto; discriminate.
Qed.
Definition ci_params : ROptParams R := mkRO true (1/100) (1/100) false 20%Z 10.
Definition ci_flat : PoseArr R := mkPA 2 2 3 (mlit 2 9 [[1; 0; 0; 1; 0; 0; 1; 0; 0]; [0; 1; 0; 0; 1; 0; 0; 1; 0]]).
Lemma ci_solve_case : single_problem 0 2 3 [ci01; ci12; ci02] /\ ro_rtr ci_params = true /\ traj 2 3 ci_flat /\
  descent_solver glib (ro_iters ci_params =? 1)%Z /\
  0 < mx_cost 2 (firsts [ci01; ci12; ci02]) (pa_X ci_flat) /\
  (forall m, In m [ci01; ci12; ci02] -> 0 < mweight m /\ 0 < mkappa m /\ 0 < mtau m) /\
  exists T T', solvePGO fqr csvd det2 glib [ci01; ci12; ci02] ci_params (Some ci_flat) = Ok T /\
    solvePGO fqr csvd det2 glib [ci01; ci12; ci02] ci_params None = Ok T' /\ mx_cost 2 [ci01; ci12; ci02] (pa_X T') = 0.
Proof.
  assert (A : single_problem 0 2 3 [ci01; ci12; ci02]) by (apply ci_single; cbn; auto).
  assert (W : forall m, In m [ci01; ci12; ci02] -> 0 < mweight m /\ 0 < mkappa m /\ 0 < mtau m).
  { intros m [<-|[<-|[<-|[]]]]; cbn; repeat split; lra. }
  split; [exact A|]. split; [reflexivity|]. assert (TF : traj 2 3 ci_flat) by (repeat split). split; [exact TF|].
  split; [apply glib_descends|]. split.
  { unfold mx_cost. cbn [firsts]. change (firsts [ci01; ci12; ci02]) with [ci01; ci12; ci02]. unfold nsumL, edge_cost, sq; cbn. change (Pos.to_nat 1) with 1%nat. change (Pos.to_nat 2) with 2%nat. cbn. lra. }
  split; [exact W|].
  destruct (solve_not_worse fqr csvd det2 _ glib ci_params 0 2 3 [ci01; ci12; ci02] (Some ci_flat) ci_flat) as (T & ET & _); auto using glib_descends.
  destruct ci_exact_case as (B1 & B2 & B3 & _ & E & Q3 & Q1 & _).
  destruct (solve_exact fqr csvd det2 _ glib ci_params 0 2 3 [ci01; ci12; ci02] ciR cit B1 B2 B3) as (T' & ET' & _ & Z & _); auto using glib_descends, ci_rotation, ci_consistent, csvd_sized, csvd_rot.
  - reflexivity.
  - apply ci_reached; cbn; auto.
  - exact det2_ok.
  - exists T, T'. auto.
Qed.
