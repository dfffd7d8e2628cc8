(** The multi-robot example's loop: one robot's pose graph and one robot. *)
From Coq Require Import List NArith ZArith Bool Arith Lia Lra Reals Permutation.
From Verif Require Import Base SMap Num RSum ModelTypes ModelPoseGraph ModelProblem ModelPoses ModelSolver ModelAgent
  SpecPoseGraph SpecPGHist SpecCost SpecAgent ProofsPoseGraph ProofsPGHist ProofsPGData ProofsCost ProofsCost2 ProofsCost4
  ProofsAgent ProofsAgent2 ProofsAgent3 ProofsAgent4 ProofsAgent5.
Import ListNotations.
Local Open Scope res_scope.
Implicit Types (g : PoseGraph R) (a : Agent R).

(** Same graph up to the cached poses and matrices; the cached matrices fit. *)
Definition like (g0 g : PoseGraph R) : Prop :=
  pg_wf g /\ core_eq g0 (set_pg_nposes g (pg_nposes g0)) /\ coh (set_pg_precon g None).

Lemma like_fields g0 g : like g0 g ->
  pg_id g = pg_id g0 /\ pg_odom g = pg_odom g0 /\ pg_priv g = pg_priv g0 /\ pg_shared g = pg_shared g0 /\
  pg_active g = pg_active g0 /\ pg_n g = pg_n g0 /\ pg_d g = pg_d g0 /\ pg_r g = pg_r g0 /\ pg_nbrs g = pg_nbrs g0 /\
  pg_priors g = pg_priors g0 /\ pg_useinact g = pg_useinact g0 /\ pg_lpub g = pg_lpub g0 /\ pg_npub g = pg_npub g0.
Proof.
  intros (_ & (A1 & A2 & A3 & A4 & A5 & A6 & A7 & A8 & _ & A10 & A11 & A12 & _ & A14 & A15) & _).
  cbn in *. repeat split; assumption.
Qed.

Lemma like_refl g : pg_wf g -> coh g -> like g g.
Proof.
  intros W K. split; [exact W|]. split; [repeat split|].
  apply (coh_core g); auto; try (intros; discriminate).
  - repeat split.
  - apply set_precon_wf; auto.
Qed.

Lemma like_precon g0 g p : like g0 g -> like g0 (set_pg_precon g p).
Proof. intros (W & C & K). split; [apply set_precon_wf; auto|]. split; [exact C|exact K]. Qed.

Lemma like_nbr g0 g D : pg_useinact g0 = false -> like g0 g -> msorted pose_ltb D -> like g0 (setNeighborPoses g D).
Proof.
  intros U L HD. pose proof L as (W & C & K). split; [|split].
  - apply (pg_step_wf g (PSetNbr D)); auto.
  - exact C.
  - assert (W1 : pg_wf (set_pg_precon g None)) by (apply set_precon_wf; auto).
    constructor; cbn.
    + intros Q E. pose proof (coh_Q _ K Q E) as F. rewrite <- F.
      change (Qfull (set_pg_G (set_pg_nposes (set_pg_precon g None) D) None) = Qfull (set_pg_precon g None)).
      apply Qfull_nposes. cbn. destruct (like_fields _ _ L) as (_ & _ & _ & _ & _ & _ & _ & _ & _ & _ & E11 & _). congruence.
    + discriminate.
    + discriminate.
Qed.

(** The stored preconditioner is not looked at. *)
Lemma loop_precon (g : PoseGraph R) p step ms : forall M, shared_loop (set_pg_precon g p) step M ms = shared_loop g step M ms.
Proof.
  induction ms as [|m ms IH]; intros M; [reflexivity|]. cbn [shared_loop]. change (shared_status (set_pg_precon g p) m) with (shared_status g m).
  destruct (shared_status g m) as [[| |i X|i X]| |]; cbn [bind]; auto; destruct (step M m _); cbn [bind]; auto.
Qed.
Lemma buildQ_precon (g : PoseGraph R) p : buildQ (set_pg_precon g p) = buildQ g.
Proof. unfold buildQ. cbv zeta. rewrite loop_precon. reflexivity. Qed.
Lemma buildG_precon (g : PoseGraph R) p : buildG (set_pg_precon g p) = buildG g.
Proof. unfold buildG. cbv zeta. rewrite loop_precon. reflexivity. Qed.
Lemma construct_precon g p : constructDataMatrices (set_pg_precon g p) =
  do '(g', b) <- constructDataMatrices g; Ok (set_pg_precon g' p, b).
Proof.
  unfold constructDataMatrices. cbn [pg_Q set_pg_precon]. destruct (pg_Q g) eqn:EQ; cbn [bind negb].
  - destruct (pg_G g) eqn:EG; cbn [pg_G set_pg_precon]; rewrite ?EG; cbn [bind]; [reflexivity|].
    unfold constructG. rewrite (buildG_precon g p). destruct (buildG g) as [[G|]| |]; reflexivity.
  - unfold constructQ. rewrite (buildQ_precon g p). destruct (buildQ g) as [[Q|]| |]; cbn [bind negb]; try reflexivity.
    cbn [pg_G set_pg_Q set_pg_precon]. destruct (pg_G g) eqn:EG; cbn [bind]; [reflexivity|].
    unfold constructG. change (set_pg_Q (set_pg_precon g p) (Some Q)) with (set_pg_precon (set_pg_Q g (Some Q)) p). rewrite (buildG_precon (set_pg_Q g (Some Q)) p).
    destruct (buildG (set_pg_Q g (Some Q))) as [[G|]| |]; reflexivity.
Qed.

Lemma like_construct g0 g g' b : like g0 g -> constructDataMatrices g = Ok (g', b) -> like g0 g' /\ pg_nposes g' = pg_nposes g.
Proof.
  intros (W & C & K) E. pose proof (constructData_core _ _ _ E) as C1.
  split.
  - split; [apply (constructData_wf _ _ _ W E)|]. split.
    + unfold core_eq in *. cbn in *. intuition congruence.
    + apply (constructData_coh (set_pg_precon g None) _ b); [apply set_precon_wf; auto|exact K|]. rewrite construct_precon, E. reflexivity.
  - unfold core_eq in C1. intuition.
Qed.

Lemma data_precon g p : qp_data (set_pg_precon g p) = do '(g', Q, G) <- qp_data g; Ok (set_pg_precon g' p, Q, G).
Proof.
  unfold qp_data, quadraticMatrix, linearMatrix. cbn [pg_Q set_pg_precon]. 
  destruct (pg_Q g) eqn:EQ; cbn [bind].
  - cbn [pg_Q set_pg_precon]. rewrite EQ. cbn [bind pg_G set_pg_precon]. destruct (pg_G g) eqn:EG; cbn [bind]; [cbn [pg_G set_pg_precon]; rewrite EG; reflexivity|].
    unfold constructG. rewrite (buildG_precon g p). destruct (buildG g) as [[G|]| |]; cbn [bind]; try reflexivity.
    cbn [pg_G set_pg_precon]. rewrite EG. reflexivity.
  - unfold constructQ. rewrite (buildQ_precon g p). destruct (buildQ g) as [[Q|]| |]; cbn [bind]; try reflexivity.
    + cbn [pg_Q set_pg_Q set_pg_precon bind pg_G]. destruct (pg_G g) eqn:EG; cbn [bind]; [cbn [pg_G set_pg_Q set_pg_precon]; rewrite EG; reflexivity|].
      unfold constructG. change (set_pg_Q (set_pg_precon g p) (Some Q)) with (set_pg_precon (set_pg_Q g (Some Q)) p). rewrite (buildG_precon (set_pg_Q g (Some Q)) p).
      destruct (buildG (set_pg_Q g (Some Q))) as [[G|]| |]; cbn [bind]; try reflexivity. cbn [pg_G set_pg_Q set_pg_precon]. rewrite EG. reflexivity.
    + cbn [pg_Q set_pg_precon]. rewrite EQ. reflexivity.
Qed.

Lemma f_precon g p X : qp_f (set_pg_precon g p) X = do '(g', v) <- qp_f g X; Ok (set_pg_precon g' p, v).
Proof.
  unfold qp_f, check. cbn [pg_r pg_d pg_n set_pg_precon]. destruct (Nat.eqb (mrows X) (pg_r g)); [|reflexivity].
  destruct (Nat.eqb (mcols X) _); [|reflexivity]. rewrite data_precon. destruct (qp_data g) as [[[g' Q] G]| |]; cbn [bind]; try reflexivity.
  unfold require. destruct (_ && _); reflexivity.
Qed.

(** The local problem's value for a graph like this. *)
Lemma like_f_val g0 g X g' v : like g0 g -> used_ok g -> qp_f g X = Ok (g', v) ->
  (v = local_cost g X - local_cost g (fun _ _ => 0))%R.
Proof.
  intros (W & _ & K) U E. assert (W1 : pg_wf (set_pg_precon g None)) by (apply set_precon_wf; auto).
  assert (E1 : qp_f (set_pg_precon g None) X = Ok (set_pg_precon g' None, v)) by (rewrite f_precon, E; reflexivity).
  destruct (qp_f_val _ _ _ _ W1 K U E1) as [-> NK]. exact (fval_cost _ X W1 NK).
Qed.

Lemma like_f_defined g0 g X : like g0 g -> needed_known g -> no_self g0 -> last_private g0 ->
  mrows X = pg_r g0 -> mcols X = (Datatypes.S (pg_d g0) * N.to_nat (pg_n g0))%nat -> exists g' v, qp_f g X = Ok (g', v).
Proof.
  intros L NK NS LP HR HC. destruct (like_fields _ _ L) as (_ & F2 & F3 & _ & _ & F6 & F7 & F8 & _).
  destruct L as (W & _ & K). assert (W1 : pg_wf (set_pg_precon g None)) by (apply set_precon_wf; auto).
  destruct (f_defined (set_pg_precon g None) X W1 K) as (g' & v & E).
  - exact NK.
  - unfold no_self in *. cbn. rewrite F2, F3. exact NS.
  - unfold last_private in *. cbn. rewrite F2, F3, F6. exact LP.
  - cbn [pg_r set_pg_precon]. congruence.
  - cbn [pg_d pg_n set_pg_precon]. congruence.
  - rewrite f_precon in E. destruct (qp_f g X) as [[g1 v1]| |]; cbn in E; try discriminate. eauto.
Qed.

Lemma construct_total g0 g : like g0 g -> needed_known g -> no_self g0 -> last_private g0 ->
  exists g', constructDataMatrices g = Ok (g', true) /\ like g0 g' /\ pg_nposes g' = pg_nposes g.
Proof.
  intros L NK NS LP. destruct (like_fields _ _ L) as (_ & F2 & F3 & _ & _ & F6 & F7 & F8 & _).
  pose proof L as (W & _ & K). assert (W1 : pg_wf (set_pg_precon g None)) by (apply set_precon_wf; auto).
  destruct (data_defined (set_pg_precon g None) W1 K) as (g1 & Q & ED & EQ & SQ).
  { exact NK. }
  { unfold no_self in *. cbn. rewrite F2, F3. exact NS. }
  { unfold last_private in *. cbn. rewrite F2, F3, F6. exact LP. }
  rewrite data_precon in ED. destruct (qp_data g) as [[[g2 Q2] G2]| |] eqn:ED'; cbn in ED; try discriminate. clear ED.
  unfold qp_data in ED'. apply bind_Ok in ED'. destruct ED' as ([g3 Q3] & E1 & E2). apply bind_Ok in E2. destruct E2 as ([g4 G4] & E2 & _).
  assert (E : exists g' b, constructDataMatrices g = Ok (g', b)).
  { unfold constructDataMatrices, quadraticMatrix in *. apply bind_Ok in E1. destruct E1 as ([g5 b5] & E1 & E3). rewrite E1. cbn [bind].
    destruct (pg_Q g5) eqn:EQ5; [|discriminate]. injection E3 as -> ->. destruct b5; cbn [negb]; [|eauto].
    unfold linearMatrix in E2. apply bind_Ok in E2. destruct E2 as ([g6 b6] & E2 & _). rewrite E2. cbn [bind]. eauto. }
  destruct E as (g' & b & E). exists g'. destruct (like_construct g0 g g' b L E) as [L' EN].
  assert (B : b = true).
  { apply (construct_iff (set_pg_precon g None) (set_pg_precon g' None) b W1 K); [rewrite construct_precon, E; reflexivity|exact NK]. }
  subst b. auto.
Qed.
