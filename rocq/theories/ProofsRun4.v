(** The multi-robot example: the central problem. *)
From Coq Require Import List NArith ZArith Bool Arith Lia Lra Reals Permutation.
From Verif Require Import Base SMap Num RSum ModelTypes ModelPoseGraph ModelProblem ModelPoses ModelExample ModelAgent
  SpecPoseGraph SpecPGHist SpecCost SpecExample SpecInit SpecRun ProofsPoseGraph ProofsPGHist ProofsPGMain ProofsCost ProofsCost2 ProofsCost4 ProofsExample ProofsExample2 ProofsInit3.
Import ListNotations.
Local Open Scope res_scope.
Local Open Scope R_scope.

Lemma rsum_zero n f : (forall i, (i < n)%nat -> f i = 0) -> rsum n f = 0.
Proof. intros E. rewrite (rsum_ext n f (fun _ => 0)) by auto. induction n; [reflexivity|]. rewrite rsum_S, IHn; [lra|]. intros; apply E; lia. Qed.
Lemma edge_cost_zero r d m : edge_cost r d m (fun _ _ => 0) (fun _ _ => 0) = 0.
Proof.
  unfold edge_cost, sq. rewrite rsum_zero.
  - rewrite rsum_zero; [lra|]. intros a _. rewrite rsum_zero; [lra|]. intros. lra.
  - intros a _. apply rsum_zero. intros c _. rewrite rsum_zero; [lra|]. intros. lra.
Qed.

Section C.
Context (d r : nat) (n : N) (ds : list (Meas R)) (HP : single_problem 0 d (N.to_nat n) ds) (ND : NoDup (map pair_of ds)) (Hr : (d <= r)%nat).

Lemma key_pairs l : NoDup (map pair_of l) -> NoDup (map (@key R) l).
Proof.
  induction l as [|e l IH]; cbn; intros N; inversion N as [|? ? A B]; subst; constructor; auto. intros Q. apply A. apply in_map_iff in Q. destruct Q as (e' & E & I).
  apply in_map_iff. exists e'. split; auto. unfold key in E. unfold pair_of. congruence.
Qed.

Lemma central : exists g0 gc, newPoseGraph 0 r d = Ok g0 /\ setMeasurements g0 ds = Ok gc /\ pg_r gc = r /\ pg_d gc = d /\ pg_n gc = n /\
  forall X : Mx R, mrows X = r -> mcols X = (N.to_nat n * S d)%nat -> (exists g, qp_f gc X = Ok (g, dataset_cost r d ds X)) /\
    (exists g D, qp_grad gc X = Ok (g, D)) /\ forall g D, qp_grad gc X = Ok (g, D) -> gradient_of r d ds X D.
Proof.
  destruct (sp_graph_r 0 d (N.to_nat n) ds HP r Hr) as (g0 & g & E0 & ES & C & PP & SH & PR & NP & GN & GD & GR). rewrite N2Nat.id in GN.
  destruct (sp_needed 0 d (N.to_nat n) ds HP g PP SH) as (NK & NS & LP); [rewrite N2Nat.id; exact GN|]. rewrite firsts_id in PP by (apply key_pairs; exact ND).
  exists g0, g. split; [exact E0|]. split; [exact ES|]. split; [exact GR|]. split; [exact GD|]. split; [exact GN|].
  assert (V : forall X g' v, qp_f g X = Ok (g', v) -> v = dataset_cost r d ds X).
  { intros X g' v E. assert (NO : nposes_ok g) by (intros p Z Hp; rewrite NP in Hp; destruct Hp).
    rewrite (cost_identity _ _ _ _ _ _ _ _ C NO E). unfold local_cost, shared_cost, priors_cost, private_cost. rewrite SH, PR, GD, GR. 
    assert (U : forall Y : nat -> nat -> R, nsumL (fun m => edge_cost r d m (pose_blk d Y (N.to_nat (mp1 m))) (pose_blk d Y (N.to_nat (mp2 m)))) (pg_odom g ++ pg_priv g)
      = nsumL (fun m => edge_cost r d m (pose_blk d Y (N.to_nat (mp1 m))) (pose_blk d Y (N.to_nat (mp2 m)))) ds) by (intros Y; apply rsumL_perm; exact PP).
    rewrite !U. unfold dataset_cost.
    assert (Z : nsumL (fun m => edge_cost r d m (pose_blk d (fun _ _ => 0) (N.to_nat (mp1 m))) (pose_blk d (fun _ _ => 0) (N.to_nat (mp2 m)))) ds = 0).
    { rewrite (rsumL_ext _ (fun _ => 0)); [|intros e _; apply edge_cost_zero]. generalize ds. intros l. induction l; [reflexivity|]. rewrite rsumL_cons, IHl. lra. }
    rewrite Z. cbn. lra. }
  assert (DF : forall X : Mx R, mrows X = r -> mcols X = (N.to_nat n * S d)%nat -> exists g', qp_f g X = Ok (g', dataset_cost r d ds X)).
  { intros X X1 X2. destruct (cost_defined _ _ _ _ _ X C NK NS LP X1) as (g' & v & E); [rewrite GN; lia|]. rewrite <- (V _ _ _ E). eauto. }
  intros X X1 X2. destruct (DF X X1 X2) as (g1 & E1). split; [eauto|]. 
  assert (SS : forall V : Mx R, mrows V = mrows X -> mcols V = mcols X -> same_size V X = true) by (intros Y A B; unfold same_size; rewrite A, B, !Nat.eqb_refl; reflexivity).
  destruct (derivatives_defined _ _ _ _ _ _ _ _ _ C E1 (SS X eq_refl eq_refl)) as (GE & _). split; [exact GE|].
  intros g2 D E2. split; [|split].
  - unfold qp_grad in E2. apply bind_Ok in E2. destruct E2 as ([[g3 Q] G] & _ & E2). apply require_Ok in E2. destruct E2 as [_ E2]. injection E2 as _ <-. reflexivity.
  - destruct (clean_facts _ _ _ _ _ C) as (W & K & _). destruct (data_defined g W K NK NS LP) as (g3 & Q & ED & _).
    unfold qp_grad in E2. rewrite ED in E2. cbn [bind] in E2. apply require_Ok in E2. destruct E2 as [B E2]. injection E2 as _ <-.
    apply andb_prop in B. destruct B as [_ B]. unfold same_size in B. apply andb_prop in B. destruct B as [_ B]. apply Nat.eqb_eq in B. destruct (Gval_size g) as [_ G2].
    cbn [madd mcols]. rewrite B, G2, X2, GD, GN. lia.
  - intros Y Y1 Y2. destruct (derivatives_defined _ _ _ _ _ _ _ _ _ C E1 (SS Y Y1 Y2)) as (_ & g3 & Hs & E3). exists (/ 2 * mdot Y Hs). intros t.
    pose proof (derivatives _ _ _ _ _ _ _ t _ _ _ _ _ _ C E1 E2 E3 (SS Y Y1 Y2)) as E4. rewrite <- (V _ _ _ E4). unfold Rdiv. ring.
Qed.
End C.
