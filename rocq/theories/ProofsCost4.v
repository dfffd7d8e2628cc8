(** Gauge, lifting, team descent, measurement error. *)
From Coq Require Import List NArith ZArith Arith Bool Lia Reals Lra Permutation.
From Verif Require Import Base SMap Num RSum ModelTypes ModelPoseGraph ModelProblem SpecPoseGraph SpecPGHist SpecCost
  ProofsPoseGraph ProofsPGHist ProofsPGData ProofsLaplacian ProofsPGMain ProofsPGCex ProofsCost ProofsCost2 ProofsCost3.
Import ListNotations.
Local Open Scope R_scope.
Implicit Types (g : PoseGraph R) (m : Meas R).

(** ** Isometries *)
Lemma iso_norm p q Y u : orthonormal p q Y ->
  rsum p (fun a => sq (rsum q (fun b => Y a b * u b))) = rsum q (fun b => sq (u b)).
Proof.
  intros HO. unfold sq.
  rewrite (rsum_ext p _ (fun a => rsum q (fun b => rsum q (fun c => (u b * u c) * (Y a b * Y a c))))).
  2:{ intros a _. rewrite <- rsum_scal_r. apply rsum_ext. intros b _. rewrite <- rsum_scal. apply rsum_ext. intros; ring. }
  rewrite rsum_swap. apply rsum_ext. intros b Hb. rewrite rsum_swap.
  rewrite (rsum_ext q _ (fun c => if Nat.eqb c b then u b * u c else 0)).
  - rewrite rsum_delta by auto. reflexivity.
  - intros c Hc. rewrite rsum_scal, (HO b c Hb Hc), (Nat.eqb_sym c b). destruct (Nat.eqb b c); ring.
Qed.

Lemma edge_cost_ext r d m Xi Xj Xi' Xj' :
  (forall a c, (a < r)%nat -> (c <= d)%nat -> Xi a c = Xi' a c) ->
  (forall a c, (a < r)%nat -> (c <= d)%nat -> Xj a c = Xj' a c) ->
  edge_cost r d m Xi Xj = edge_cost r d m Xi' Xj'.
Proof.
  intros A B. rewrite !edge_cost_form. apply rsum_ext. intros a Ha. apply rsum_ext. intros c Hc.
  rewrite B by lia. do 3 f_equal. apply rsum_ext. intros b Hb. rewrite A by lia. reflexivity.
Qed.

Lemma prior_cost_ext r d P X P' X' :
  (forall a c, (a < r)%nat -> (c <= d)%nat -> P a c = P' a c) ->
  (forall a c, (a < r)%nat -> (c <= d)%nat -> X a c = X' a c) ->
  prior_cost r d P X = prior_cost r d P' X'.
Proof.
  intros A B. rewrite !prior_cost_form. apply rsum_ext. intros a Ha. apply rsum_ext. intros c Hc.
  rewrite A, B by lia. reflexivity.
Qed.

(** Rigid motion of both poses. *)
Lemma edge_cost_iso p q d m Y v Xi Xj : orthonormal p q Y ->
  edge_cost p d m (fun a c => rsum q (fun b => Y a b * Xi b c) + (if Nat.eqb c d then v a else 0))
                  (fun a c => rsum q (fun b => Y a b * Xj b c) + (if Nat.eqb c d then v a else 0)) =
  edge_cost q d m Xi Xj.
Proof.
  intros HO. rewrite !edge_cost_form.
  rewrite rsum_swap. rewrite (rsum_swap q). apply rsum_ext. intros c Hc. rewrite !rsum_scal. f_equal.
  rewrite <- (iso_norm p q Y (fun b => rsum (S d) (fun b0 => Xi b b0 * hom d m b0 c) - Xj b c) HO).
  apply rsum_ext. intros a Ha. f_equal.
  rewrite (rsum_ext (S d) _ (fun b => rsum q (fun k => Y a k * Xi k b) * hom d m b c + (if Nat.eqb b d then v a * hom d m b c else 0))).
  2:{ intros b Hb. destruct (Nat.eqb b d); ring. }
  rewrite rsum_add, rsum_delta by lia. rewrite (hom_val d m d c) by lia. rewrite Nat.ltb_irrefl.
  rewrite (rsum_ext q (fun b => Y a b * (_ - _)) (fun b => rsum (S d) (fun b0 => Y a b * Xi b b0 * hom d m b0 c) - Y a b * Xj b c)).
  2:{ intros b Hb. rewrite Rmult_minus_distr_l, <- rsum_scal. f_equal. apply rsum_ext. intros; ring. }
  rewrite rsum_sub. rewrite (rsum_swap q).
  rewrite (rsum_ext (S d) (fun b => rsum q (fun k => Y a k * Xi k b) * hom d m b c)
     (fun j => rsum q (fun i => Y a i * Xi i j * hom d m j c))).
  2:{ intros b Hb. rewrite <- rsum_scal_r. reflexivity. }
  destruct (Nat.eqb_spec c d); ring.
Qed.

Lemma edge_cost_iso0 p q d m Y Xi Xj : orthonormal p q Y ->
  edge_cost p d m (fun a c => rsum q (fun b => Y a b * Xi b c)) (fun a c => rsum q (fun b => Y a b * Xj b c)) =
  edge_cost q d m Xi Xj.
Proof.
  intros HO. rewrite <- (edge_cost_iso p q d m Y (fun _ => 0) Xi Xj HO).
  apply edge_cost_ext; intros a c _ _; destruct (Nat.eqb c d); ring.
Qed.

Lemma prior_cost_iso0 p q d Y P X : orthonormal p q Y ->
  prior_cost p d (fun a c => rsum q (fun b => Y a b * P b c)) (fun a c => rsum q (fun b => Y a b * X b c)) =
  prior_cost q d P X.
Proof.
  intros HO. rewrite !prior_cost_form. rewrite rsum_swap. rewrite (rsum_swap q).
  apply rsum_ext. intros c Hc. rewrite !rsum_scal. f_equal.
  rewrite <- (iso_norm p q Y (fun b => X b c - P b c) HO). apply rsum_ext. intros a Ha. f_equal.
  rewrite <- rsum_sub. apply rsum_ext. intros; ring.
Qed.

(** ** C13 *)
Lemma qp_f_same g X X' g' v : pg_wf g -> coh g -> qp_f g X = Ok (g', v) -> same_size X' X = true ->
  exists v', qp_f g X' = Ok (g', v').
Proof.
  intros W K E HS. destruct (qp_f_bil _ _ _ _ W K E) as (Q & ED & EQ & NK & H1 & H2 & HQ & SQ & _).
  unfold same_size in HS. apply andb_prop in HS. destruct HS as [S1 S2]. apply Nat.eqb_eq in S1, S2.
  destruct (Gval_size g) as [G1 G2].
  unfold qp_f, check. rewrite S1, S2, H1, H2, !Nat.eqb_refl, ED. cbn [bind].
  unfold require, can_mul, same_size. cbn [mmul mrows mcols]. rewrite SQ, HQ, S1, S2, H2, H1, G1, G2, !Nat.eqb_refl. cbn. eauto.
Qed.

Lemma private_cost_moved g O v X X' : pg_wf g -> orthonormal (pg_r g) (pg_r g) O ->
  moved (pg_r g) (pg_d g) (N.to_nat (pg_n g)) O v X X' -> private_cost g X' = private_cost g X.
Proof.
  intros W HO HM. unfold private_cost. apply rsumL_ext. intros m Hm.
  destruct (local_lt g m W Hm) as [L1 L2].
  rewrite <- (edge_cost_iso (pg_r g) (pg_r g) (pg_d g) m O v (pose_blk (pg_d g) X (N.to_nat (mp1 m)))
                (pose_blk (pg_d g) X (N.to_nat (mp2 m))) HO).
  apply edge_cost_ext; intros a c Ha Hc; unfold pose_blk; apply HM; auto; lia.
Qed.

Theorem gauge id r d os g O v (X X' : Mx R) g' f : clean id r d os g -> pg_shared g = [] -> pg_priors g = [] ->
  orthonormal r r O -> moved r d (N.to_nat (pg_n g)) O v X X' -> same_size X' X = true ->
  qp_f g X = Ok (g', f) -> qp_f g X' = Ok (g', f).
Proof.
  intros C HS HP HO HM SZ E. destruct (clean_facts _ _ _ _ _ C) as (W & K & RH).
  destruct (reach_dims _ _ _ _ _ RH) as (<- & <- & _).
  destruct (qp_f_same _ _ _ _ _ W K E SZ) as (f' & E'). rewrite E'. do 2 f_equal.
  destruct (qp_f_bil _ _ _ _ W K E) as (_ & _ & _ & NK & _).
  assert (UO : used_ok g) by (intros m Z Hin; rewrite HS in Hin; destruct Hin).
  assert (FV : forall Z g1 w, qp_f g Z = Ok (g1, w) -> w = / 2 * private_cost g Z).
  { intros Z g1 w EZ. destruct (qp_f_val _ _ _ _ W K UO EZ) as [-> _].
    rewrite fval_cost by auto. unfold local_cost, shared_cost, priors_cost. rewrite HS, HP. rewrite !rsumL_nil.
    assert (P0 : private_cost g zeroX = 0).
    { unfold private_cost, zeroX. apply rsumL_zero. intros m _. rewrite edge_cost_form. apply rsum_zero'. intros a _.
      apply rsum_zero'. intros c _. unfold pose_blk. rewrite rsum_zero'; [unfold sq; ring|]. intros; ring. }
    rewrite P0. ring. }
  rewrite (FV _ _ _ E), (FV _ _ _ E'). f_equal. eapply private_cost_moved; eauto.
Qed.

(** ** C14 *)
Lemma remote_lifted Y g0 g m : lifted Y g0 g ->
  remote_pose g m = match remote_pose g0 m with Some Z => Some (mmul Y Z) | None => None end.
Proof.
  intros (E1 & _ & _ & _ & _ & _ & _ & EA & EU & EN & _). unfold remote_pose. rewrite E1, EA, EU, EN.
  destruct (_ || _); auto. clear. induction (pg_nposes g0) as [|[p Z] l IH]; [reflexivity|].
  cbn [map find fst snd]. destruct (poseid_eqb p (other_pose (pg_id g0) m)); auto.
Qed.

Lemma mmul_blk Y T d i a c : pose_blk d (mmul Y T) i a c = rsum (mcols Y) (fun b => Y a b * pose_blk d T i b c).
Proof. reflexivity. Qed.

Lemma local_cost_lifted Y g0 g T : lifted Y g0 g -> orthonormal (mrows Y) (mcols Y) Y ->
  local_cost g (mmul Y T) = local_cost g0 T.
Proof.
  intros L HO. pose proof (fun m => remote_lifted Y g0 g m L) as RL.
  destruct L as (E1 & ED & ER & ER0 & EO & EP & ES & EA & EU & EN & EPR).
  unfold local_cost. do 2 f_equal; [f_equal|].
  - unfold private_cost. rewrite EO, EP, ED, ER, ER0. apply rsumL_ext. intros m _.
    apply (edge_cost_iso0 (mrows Y) (mcols Y) (pg_d g0) m Y _ _ HO).
  - unfold shared_cost. rewrite ES, ED, ER, ER0, E1. apply rsumL_ext. intros m _. rewrite RL.
    destruct (remote_pose g0 m) as [Z|]; auto.
    destruct (mr1 m =? pg_id g0)%N; apply (edge_cost_iso0 (mrows Y) (mcols Y) (pg_d g0) m Y _ _ HO).
  - unfold priors_cost. rewrite EPR, ED, ER, ER0, rsumL_map. apply rsumL_ext. intros [k P] _. cbn [fst snd].
    apply (prior_cost_iso0 (mrows Y) (mcols Y) (pg_d g0) Y _ _ HO).
Qed.

Lemma local_cost_ext g X X' : pg_wf g ->
  (forall a j, (a < pg_r g)%nat -> (j < S (pg_d g) * N.to_nat (pg_n g))%nat -> X a j = X' a j) ->
  local_cost g X = local_cost g X'.
Proof.
  intros W H.
  assert (B : forall i a c, (i < pg_n g)%N -> (a < pg_r g)%nat -> (c <= pg_d g)%nat ->
     pose_blk (pg_d g) X (N.to_nat i) a c = pose_blk (pg_d g) X' (N.to_nat i) a c).
  { intros i a c Hi Ha Hc. unfold pose_blk. apply H; auto.
    assert (N.to_nat i < N.to_nat (pg_n g))%nat by lia. nia. }
  unfold local_cost. do 2 f_equal; [f_equal|].
  - unfold private_cost. apply rsumL_ext. intros m Hm. destruct (local_lt g m W Hm).
    apply edge_cost_ext; intros; apply B; auto.
  - unfold shared_cost. apply rsumL_ext. intros m Hm. destruct (remote_pose g m); auto.
    pose proof (own_idx_lt g m W Hm) as L. rewrite (own_idx_val g m W Hm) in L.
    destruct (mr1 m =? pg_id g)%N; apply edge_cost_ext; intros; auto; apply B; auto.
  - unfold priors_cost. apply rsumL_ext. intros [k P] Hin. destruct (wf_priors _ W k P Hin) as [L _].
    cbn [fst snd]. apply prior_cost_ext; intros; auto.
Qed.

Theorem lifting id r d os os0 g0 g Y T g1 v0 g2 v : clean id d d os0 g0 -> clean id r d os g ->
  nposes_ok g0 -> nposes_ok g -> lifted Y g0 g -> orthonormal r d Y ->
  qp_f g0 T = Ok (g1, v0) -> qp_f g (mmul Y T) = Ok (g2, v) -> v = v0.
Proof.
  intros C0 C N0 NP L HO E0 E.
  destruct (clean_facts _ _ _ _ _ C0) as (W0 & _ & RH0). destruct (reach_dims _ _ _ _ _ RH0) as (D0 & R0 & _).
  destruct (clean_facts _ _ _ _ _ C) as (W & _ & RH). destruct (reach_dims _ _ _ _ _ RH) as (DG & RG & _).
  assert (HO' : orthonormal (mrows Y) (mcols Y) Y).
  { destruct L as (_ & _ & A & B & _). rewrite <- A, <- B, RG, R0. exact HO. }
  rewrite (cost_identity _ _ _ _ _ _ _ _ C0 N0 E0), (cost_identity _ _ _ _ _ _ _ _ C NP E).
  rewrite (local_cost_lifted Y g0 g T L HO'). f_equal.
  transitivity (local_cost g (mmul Y (mzero 0 0))); [|exact (local_cost_lifted Y g0 g (mzero 0 0) L HO')].
  apply local_cost_ext; auto.
  intros. cbn [mmul mat mzero]. rewrite rsum_zero'; auto. intros; numr; ring.
Qed.

Theorem unlift Y T : orthonormal (mrows Y) (mcols Y) Y -> mrows T = mcols Y -> mx_eq (mmul (mtr Y) (mmul Y T)) T.
Proof.
  intros HO HT. split; [cbn; auto|]. split; [reflexivity|]. cbn [mmul mtr mrows mcols mat]. intros i j Hi Hj.
  rewrite (rsum_ext (mrows Y) _ (fun k => rsum (mcols Y) (fun b => T b j * (Y k i * Y k b)))).
  2:{ intros k Hk. numr. rewrite <- rsum_scal. apply rsum_ext. intros; numr; ring. }
  rewrite rsum_swap. rewrite (rsum_ext (mcols Y) _ (fun b => if Nat.eqb b i then T b j else 0)).
  - apply (rsum_delta (mcols Y) i (fun b => T b j)); auto.
  - intros b Hb. rewrite rsum_scal, (HO i b Hi Hb), (Nat.eqb_sym b i). destruct (Nat.eqb i b); ring.
Qed.

(** ** C15 *)
Lemma rsumL_perm {A} (f : A -> R) l l' : Permutation l l' -> nsumL f l = nsumL f l'.
Proof.
  induction 1; rewrite ?rsumL_nil, ?rsumL_cons; auto; try lra.
Qed.

Lemma central_split r d M k X X' : (forall j, j <> k -> X' j = X j) ->
  nsumL (central_edge r d X') M - nsumL (central_edge r d X) M =
  nsumL (central_edge r d X') (filter (touches k) M) - nsumL (central_edge r d X) (filter (touches k) M).
Proof.
  intros HX. induction M as [|m M IH]; [reflexivity|]. cbn [filter]. rewrite !rsumL_cons.
  destruct (touches k m) eqn:T.
  - rewrite !rsumL_cons. lra.
  - assert (central_edge r d X' m = central_edge r d X m).
    { unfold touches in T. apply orb_false_elim in T. destruct T as [A B]. apply N.eqb_neq in A, B.
      unfold central_edge. rewrite !HX; auto. }
    lra.
Qed.

Lemma local_robots' g m : pg_wf g -> In m (pg_odom g ++ pg_priv g) -> mr1 m = pg_id g /\ mr2 m = pg_id g.
Proof. intros W Hm. apply (local_robots g m W Hm). Qed.

Lemma team_delta r d M ids P X X' k g : pg_wf g -> pg_id g = k -> pg_d g = d -> pg_r g = r ->
  knows k M g -> pg_priors g = P k -> current g X -> NoDup ids -> In k ids -> (forall j, j <> k -> X' j = X j) ->
  central_cost r d M ids P X' - central_cost r d M ids P X = local_cost g (X' k) - local_cost g (X k).
Proof.
  intros W <- <- <- HK HP HC ND Hk HX. unfold central_cost, local_cost.
  set (r := pg_r g) in *. set (d := pg_d g) in *.
  pose proof (central_split r d M _ X X' HX) as SP.
  assert (PR : forall l, NoDup l ->
    nsumL (fun j => nsumL (fun kv : N * Mx R => prior_cost r d (snd kv) (pose_blk d (X' j) (N.to_nat (fst kv)))) (P j)) l -
    nsumL (fun j => nsumL (fun kv : N * Mx R => prior_cost r d (snd kv) (pose_blk d (X j) (N.to_nat (fst kv)))) (P j)) l =
    if in_dec N.eq_dec (pg_id g) l then priors_cost g (X' (pg_id g)) - priors_cost g (X (pg_id g)) else 0).
  { induction l as [|j l IH]; intros NDl.
    - rewrite !rsumL_nil. destruct (in_dec N.eq_dec (pg_id g) []) as [[]|]. lra.
    - inversion NDl as [|? ? NI ND']; subst. rewrite !rsumL_cons. specialize (IH ND').
      destruct (N.eq_dec j (pg_id g)) as [->|NE].
      + destruct (in_dec N.eq_dec (pg_id g) (pg_id g :: l)) as [_|F]; [|destruct F; left; auto].
        destruct (in_dec N.eq_dec (pg_id g) l); [contradiction|]. unfold priors_cost. rewrite HP. fold r d. lra.
      + rewrite (HX j NE).
        destruct (in_dec N.eq_dec (pg_id g) (j :: l)) as [[F|I]|F]; destruct (in_dec N.eq_dec (pg_id g) l) as [I'|I'];
          try (congruence || contradiction || lra). exfalso; apply F; right; auto. }
  specialize (PR ids ND). destruct (in_dec N.eq_dec (pg_id g) ids) as [_|F]; [|contradiction].
  rewrite <- (rsumL_perm (central_edge r d X') _ _ HK), <- (rsumL_perm (central_edge r d X) _ _ HK) in SP.
  rewrite app_assoc, !rsumL_app in SP. rewrite <- !rsumL_app in SP.
  rewrite (rsumL_app (central_edge r d X')), (rsumL_app (central_edge r d X)) in SP.
  assert (LP : forall Z, nsumL (central_edge r d Z) (pg_odom g ++ pg_priv g) = private_cost g (Z (pg_id g))).
  { intros Z. unfold private_cost. apply rsumL_ext. intros m Hm. destruct (local_robots' g m W Hm) as [A B].
    unfold central_edge. rewrite A, B. reflexivity. }
  rewrite !LP in SP.
  assert (SH : forall Z, (forall j, j <> pg_id g -> Z j = X j) ->
     nsumL (central_edge r d Z) (pg_shared g) = shared_cost g (Z (pg_id g))).
  { intros Z HZ. unfold shared_cost. apply rsumL_ext. intros m Hm. destruct (HC m Hm) as (Zr & ER & EZ). rewrite ER.
    pose proof (wf_shared _ W _ Hm) as Hs. unfold is_shared in Hs. unfold other_pose in EZ. unfold central_edge. fold r d.
    destruct (N.eqb_spec (mr1 m) (pg_id g)) as [E1|E1].
    - cbn [robot_id frame_id] in EZ. rewrite E1. apply edge_cost_ext; auto. intros a c Ha Hc. rewrite EZ by auto.
      rewrite HZ; auto. intros E2. rewrite E2, N.eqb_refl in Hs. discriminate.
    - cbn [robot_id frame_id] in EZ. cbn in Hs. destruct (N.eqb_spec (mr2 m) (pg_id g)) as [E2|E2]; [|discriminate].
      rewrite E2. apply edge_cost_ext; auto. intros a c Ha Hc. rewrite EZ by auto. rewrite HZ; auto. }
  rewrite (SH X'), (SH X) in SP by auto.
  unfold r, d in *. lra.
Qed.

Theorem team_change r d M ids P X X' k os g g1 g2 v v' :
  NoDup ids -> In k ids -> clean k r d os g -> knows k M g -> pg_priors g = P k -> current g X -> nposes_ok g ->
  qp_f g (X k) = Ok (g1, v) -> qp_f g (X' k) = Ok (g2, v') -> (forall j, j <> k -> X' j = X j) ->
  central_cost r d M ids P X' - central_cost r d M ids P X = v' - v.
Proof.
  intros ND Hk C HK HP HC NP E E' HX.
  destruct (clean_facts _ _ _ _ _ C) as (W & _ & RH). destruct (reach_dims _ _ _ _ _ RH) as (D & Rr & _).
  destruct (reach_facts _ _ _ _ _ RH) as (I & _).
  rewrite (team_delta r d M ids P X X' k g); auto.
  rewrite (cost_identity _ _ _ _ _ _ _ _ C NP E), (cost_identity _ _ _ _ _ _ _ _ C NP E'). lra.
Qed.

Theorem team_descent r d M ids P X X' : NoDup ids -> team_run r d M ids P X X' ->
  central_cost r d M ids P X' <= central_cost r d M ids P X.
Proof.
  intros ND. induction 1 as [|X X' X'' HS HR IH]; [lra|].
  destruct HS as (k & os & g & g1 & g2 & v & v' & Hk & C & HK & HP & HC & NP & E & E' & LE & HX).
  pose proof (team_change r d M ids P X X' k os g g1 g2 v v' ND Hk C HK HP HC NP E E' HX). lra.
Qed.

(** ** C12 *)
Lemma precon_value (Q : Mx R) i j : mrows (precon_matrix Q) = mrows Q /\ mcols (precon_matrix Q) = mcols Q /\
  precon_matrix Q i j = Q i j + (if Nat.eq_dec i j then 1 / 10 else 0).
Proof.
  split; [reflexivity|]. split; [reflexivity|]. cbn [precon_matrix mat]. destruct (Nat.eq_dec i j) as [->|N].
  - rewrite Nat.eqb_refl. unfold nlit. numr. field.
  - rewrite (proj2 (Nat.eqb_neq i j) N). ring.
Qed.

(** ** C49 *)
Lemma me_shape m R1 t1 R2 t2 r d v : mrows R1 = r -> mcols R1 = d -> mrows t1 = r -> mcols t1 = 1%nat ->
  computeMeasurementError m R1 t1 R2 t2 = Ok v ->
  mrows R2 = r /\ mcols R2 = mcols (mR m) /\ mrows (mR m) = d /\ mrows t2 = r /\ mcols t2 = 1%nat /\ mrows (mt m) = d /\ mcols (mt m) = 1%nat /\
  v = mkappa m * rsum r (fun a => rsum (mcols (mR m)) (fun c => sq (rsum d (fun b => R1 a b * mR m b c) - R2 a c))) +
      mtau m * rsum r (fun a => sq (t2 a 0%nat - t1 a 0%nat - rsum d (fun b => R1 a b * mt m b 0%nat))).
Proof.
  intros A B C D E. unfold computeMeasurementError in E. apply require_Ok in E. destruct E as [H E]. inversion E. clear E.
  unfold can_mul, same_size in H. cbn [mmul mrows mcols] in H. rewrite A, B, C, D in H.
  repeat match goal with H : _ && _ = true |- _ => apply andb_prop in H; destruct H end.
  repeat match goal with H : Nat.eqb _ _ = true |- _ => apply Nat.eqb_eq in H end.
  repeat (split; [congruence|]).
  unfold mfro2. cbn [msub mmul mrows mcols mat]. rewrite A, B. numr.
  replace (mrows t2) with r by congruence. replace (mcols t2) with 1%nat by congruence.
  f_equal. f_equal. apply rsum_ext. intros a Ha. rewrite rsum_one. reflexivity.
Qed.

Theorem meas_error_value m (R1 t1 R2 t2 : Mx R) r d v :
  mrows R1 = r -> mcols R1 = d -> mrows t1 = r -> mcols t1 = 1%nat -> mcols (mR m) = d ->
  computeMeasurementError m R1 t1 R2 t2 = Ok v ->
  v = mkappa m * rsum r (fun a => rsum d (fun c => sq (rsum d (fun b => R1 a b * mR m b c) - R2 a c))) +
      mtau m * rsum r (fun a => sq (t2 a 0%nat - t1 a 0%nat - rsum d (fun b => R1 a b * mt m b 0%nat))).
Proof. intros A B C D Dm E. destruct (me_shape m R1 t1 R2 t2 r d v A B C D E) as (_ & _ & _ & _ & _ & _ & _ & ->). rewrite Dm. reflexivity. Qed.

Theorem meas_error_zero m R1 t1 R2 t2 r d v : mrows R1 = r -> mcols R1 = d -> mrows t1 = r -> mcols t1 = 1%nat ->
  mcols (mR m) = d -> 0 <= mkappa m -> 0 <= mtau m ->
  computeMeasurementError m R1 t1 R2 t2 = Ok v ->
  0 <= v /\ (0 < mkappa m -> 0 < mtau m -> (v = 0 <-> consistent_in r d m R1 t1 R2 t2)).
Proof.
  intros A B C D Dm Hk Ht E. destruct (me_shape m R1 t1 R2 t2 r d v A B C D E) as (_ & _ & _ & _ & _ & _ & _ & ->). rewrite Dm.
  assert (P1 : 0 <= rsum r (fun a => rsum d (fun c => sq (rsum d (fun b => R1 a b * mR m b c) - R2 a c)))).
  { apply rsum_nonneg. intros. apply rsum_nonneg. intros. apply Rle_0_sqr. }
  assert (P2 : 0 <= rsum r (fun a => sq (t2 a 0%nat - t1 a 0%nat - rsum d (fun b => R1 a b * mt m b 0%nat)))).
  { apply rsum_nonneg. intros. apply Rle_0_sqr. }
  split; [nra|]. intros Pk Pt. split.
  - intros Z. assert (Z1 : rsum r (fun a => rsum d (fun c => sq (rsum d (fun b => R1 a b * mR m b c) - R2 a c))) = 0) by nra.
    assert (Z2 : rsum r (fun a => sq (t2 a 0%nat - t1 a 0%nat - rsum d (fun b => R1 a b * mt m b 0%nat))) = 0) by nra.
    split.
    + intros a c Ha Hc.
      pose proof (rsum_nonneg_zero r _ (fun a _ => rsum_nonneg d _ (fun c _ => Rle_0_sqr _)) Z1 a Ha) as Z3.
      pose proof (rsum_nonneg_zero d _ (fun c _ => Rle_0_sqr _) Z3 c Hc) as Z4. apply Rsqr_0_uniq in Z4. lra.
    + intros a Ha. pose proof (rsum_nonneg_zero r _ (fun c _ => Rle_0_sqr _) Z2 a Ha) as Z4. apply Rsqr_0_uniq in Z4. lra.
  - intros [C1 C2]. rewrite !rsum_zero'; [ring|..].
    + intros a Ha. rewrite C2 by auto. unfold sq. ring.
    + intros a Ha. apply rsum_zero'. intros c Hc. rewrite C1 by auto. unfold sq. ring.
Qed.

(** Moving both poses by the rigid motion (O, p). *)
Theorem meas_error_gauge m R1 t1 R2 t2 R1' t1' R2' t2' O p r d v : mrows R1 = r -> mcols R1 = d -> mrows t1 = r -> mcols t1 = 1%nat ->
  mcols (mR m) = d -> mrows O = r -> mcols O = r -> orthonormal r r O -> mrows p = r ->
  R1' = mmul O R1 -> R2' = mmul O R2 -> t1' = madd (mmul O t1) p -> t2' = madd (mmul O t2) p ->
  computeMeasurementError m R1 t1 R2 t2 = Ok v ->
  computeMeasurementError m R1' t1' R2' t2' = Ok v.
Proof.
  intros A B C D Dm O1 O2 HO Hp -> -> -> -> E.
  destruct (me_shape m R1 t1 R2 t2 r d v A B C D E) as (S1 & S2 & S3 & S4 & S5 & S6 & S7 & V).
  assert (exists v', computeMeasurementError m (mmul O R1) (madd (mmul O t1) p) (mmul O R2) (madd (mmul O t2) p) = Ok v') as (v' & E').
  { unfold computeMeasurementError, require, can_mul, same_size. cbn [mmul madd mrows mcols].
    rewrite O1, B, S3, S2, Dm, S5, D, S6, S7, !Nat.eqb_refl. cbn. eauto. }
  rewrite E'. f_equal.
  destruct (me_shape m (mmul O R1) (madd (mmul O t1) p) (mmul O R2) (madd (mmul O t2) p) r d v' O1 B O1 D E') as (_ & _ & _ & _ & _ & _ & _ & V').
  rewrite V, V'. rewrite Dm. f_equal; f_equal.
  - rewrite rsum_swap. rewrite (rsum_swap r d (fun i j => sq (rsum d (fun b => R1 i b * mR m b j) - R2 i j))).
    apply rsum_ext. intros c Hc.
    rewrite <- (iso_norm r r O (fun a => rsum d (fun b => R1 a b * mR m b c) - R2 a c) HO).
    apply rsum_ext. intros a Ha. f_equal. cbn [mmul mat]. rewrite O2.
    rewrite (rsum_ext r (fun b => O a b * (_ - _)) (fun k => rsum d (fun b => O a k * R1 k b * mR m b c) - O a k * R2 k c)).
    2:{ intros k Hk. rewrite Rmult_minus_distr_l, <- rsum_scal. f_equal. apply rsum_ext. intros; ring. }
    rewrite rsum_sub. f_equal. rewrite rsum_swap. apply rsum_ext. intros b Hb. rewrite <- rsum_scal_r. reflexivity.
  - rewrite <- (iso_norm r r O (fun a => t2 a 0%nat - t1 a 0%nat - rsum d (fun b => R1 a b * mt m b 0%nat)) HO).
    apply rsum_ext. intros a Ha. f_equal. cbn [mmul madd mat]. rewrite O2. numr.
    rewrite (rsum_ext r (fun b => O a b * (_ - _ - _)) (fun k => O a k * t2 k 0%nat - O a k * t1 k 0%nat - rsum d (fun b => O a k * R1 k b * mt m b 0%nat))).
    2:{ intros k Hk. rewrite !Rmult_minus_distr_l, <- rsum_scal. f_equal. apply rsum_ext. intros; ring. }
    rewrite !rsum_sub.
    rewrite (rsum_swap r d (fun k b => O a k * R1 k b * mt m b 0%nat)).
    rewrite (rsum_ext d (fun b => rsum r (fun k => O a k * R1 k b) * mt m b 0%nat) (fun j => rsum r (fun i => O a i * R1 i j * mt m j 0%nat))).
    2:{ intros b Hb. rewrite <- rsum_scal_r. reflexivity. }
    ring.
Qed.

(** ** C12 in terms of the model *)
Theorem Q_psd id r d os g g' Q : clean id r d os g -> (forall m, In m (measurements g) -> nonneg_meas m) ->
  quadraticMatrix g = Ok (g', Q) ->
  mcols Q = mrows Q /\
  (forall i j, (i < mrows Q)%nat -> (j < mrows Q)%nat -> Q i j = Q j i) /\
  (forall V, mcols V = mrows Q -> 0 <= mdot V (mmul V Q)) /\
  (forall x, (exists i, (i < mrows Q)%nat /\ x i <> 0) ->
     0 < rsum (mrows Q) (fun i => rsum (mrows Q) (fun j => x i * precon_matrix Q i j * x j))) /\
  exists L : nat -> nat -> R, (forall i k, (i < k)%nat -> L i k = 0) /\ (forall i, (i < mrows Q)%nat -> 0 < L i i) /\
    forall i j, (i < mrows Q)%nat -> (j < mrows Q)%nat ->
      rsum (mrows Q) (fun k => L i k * L j k) = precon_matrix Q i j.
Proof.
  intros C HM E. destruct (clean_facts _ _ _ _ _ C) as (W & K & _).
  destruct (quadratic_coh _ _ _ W K E) as (_ & _ & _ & EQ).
  destruct (Qfull_form g Q (fun _ => 0) (fun _ => 0) W EQ) as [SQ _].
  split; [auto|]. split; [intros; eapply Q_sym; eauto|]. split.
  { intros V HV. unfold mdot. cbn [mmul mat mrows mcols]. rewrite HV. apply rsum_nonneg. intros a _.
    rewrite (rsum_ext _ _ (fun j => rsum (mrows Q) (fun k => V a k * Q k j) * V a j)) by (intros; numr; ring).
    rewrite mul_dot_bil, (Qfull_bil g Q) by auto. apply Qform_psd; auto. }
  pose proof (precon_pd g Q W EQ HM) as PD. split; [exact PD|].
  apply cholesky; auto. intros i j Hi Hj. cbn [precon_matrix mat]. rewrite (Nat.eqb_sym i j).
  rewrite (Q_sym g Q i j W EQ Hi Hj). reflexivity.
Qed.

Theorem derivatives id r d os g X V t g1 v g2 D g3 Hs : clean id r d os g ->
  qp_f g X = Ok (g1, v) -> qp_grad g X = Ok (g2, D) -> qp_hess g V = Ok (g3, Hs) -> same_size V X = true ->
  qp_f g (madd X (mscal t V)) = Ok (g1, v + t * mdot D V + t * t / 2 * mdot V Hs).
Proof. intros C. destruct (clean_facts _ _ _ _ _ C) as (W & K & _). apply grad_hess; auto. Qed.

(** Gradient and Hessian are defined whenever the cost is. *)
Theorem derivatives_defined id r d os g X V g1 v : clean id r d os g -> qp_f g X = Ok (g1, v) -> same_size V X = true ->
  (exists g2 D, qp_grad g X = Ok (g2, D)) /\ (exists g3 Hs, qp_hess g V = Ok (g3, Hs)).
Proof.
  intros C E HS. destruct (clean_facts _ _ _ _ _ C) as (W & K & _).
  destruct (qp_f_bil _ _ _ _ W K E) as (Q & ED & EQ & NK & H1 & H2 & HQ & SQ & _).
  unfold same_size in HS. apply andb_prop in HS. destruct HS as [S1 S2]. apply Nat.eqb_eq in S1, S2.
  destruct (Gval_size g) as [G1 G2]. split.
  - unfold qp_grad. rewrite ED. cbn [bind]. unfold require, can_mul, same_size. cbn [mmul mrows mcols].
    rewrite SQ, HQ, H2, H1, G1, G2, !Nat.eqb_refl. cbn. eauto.
  - unfold qp_data in ED. apply bind_Ok in ED. destruct ED as ([g4 Q4] & E4 & ED).
    apply bind_Ok in ED. destruct ED as ([g5 G5] & _ & ED). inversion ED; subst.
    unfold qp_hess. rewrite E4. cbn [bind]. unfold require, can_mul. rewrite S2, H2, HQ, Nat.eqb_refl. eauto.
Qed.
