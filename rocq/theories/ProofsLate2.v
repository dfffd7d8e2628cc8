(** An agent anchored after it has optimised. *)
From Coq Require Import List NArith ZArith Arith Bool Lia Reals Lra.
From Verif Require Import Base SMap Num RSum ModelTypes ModelPoseGraph ModelProblem ModelPoses ModelAgent SpecPoseGraph SpecPGHist SpecCost
  SpecAgent SpecData SpecLate ProofsPoseGraph ProofsPGHist ProofsPGData ProofsPoses ProofsAgent ProofsData ProofsLate ProofsFramesEx ProofsLogEx.
Import ListNotations.
Local Open Scope R_scope.
Implicit Types (g : PoseGraph R) (a : Agent R) (x : Ext R).

Lemma qp_f_built g gc X : constructDataMatrices g = Ok (gc, true) -> qp_f gc X = qp_f g X.
Proof.
  intros E. unfold constructDataMatrices in E. apply bind_Ok in E. destruct E as [[g1 b1] [E1 E]].
  destruct b1; cbn [negb] in E; [|discriminate]. apply bind_Ok in E. destruct E as [[g2 b2] [E2 E]].
  injection E as <- ->.
  assert (H1 : exists Q, pg_Q g1 = Some Q /\ pg_G g1 = pg_G g /\ pg_r g1 = pg_r g /\ pg_d g1 = pg_d g /\ pg_n g1 = pg_n g).
  { destruct (pg_Q g) as [Q|] eqn:HQ; [injection E1 as <-; exists Q; auto|]. unfold constructQ in E1. apply bind_Ok in E1.
    destruct E1 as [[Q|] [B E1]]; inversion E1; subst. exists Q. cbn. auto. }
  destruct H1 as (Q & HQ & HG & Hr & Hd & Hn).
  assert (H2 : exists G, pg_G g2 = Some G /\ pg_Q g2 = Some Q /\ pg_r g2 = pg_r g /\ pg_d g2 = pg_d g /\ pg_n g2 = pg_n g).
  { destruct (pg_G g1) as [G|] eqn:PG; [injection E2 as <-; exists G; auto|]. unfold constructG in E2. apply bind_Ok in E2.
    destruct E2 as [[G|] [B E2]]; inversion E2; subst. exists G. cbn. auto. }
  destruct H2 as (G & HG2 & HQ2 & Hr2 & Hd2 & Hn2).
  assert (D2 : qp_data g2 = Ok (g2, Q, G)).
  { unfold qp_data, quadraticMatrix, linearMatrix. rewrite HQ2. cbn [bind]. rewrite HQ2. cbn [bind]. rewrite HG2. cbn [bind]. rewrite HG2. reflexivity. }
  assert (D1 : qp_data g = Ok (g2, Q, G)).
  { unfold qp_data, quadraticMatrix, linearMatrix. rewrite E1. cbn [bind]. rewrite HQ. cbn [bind]. rewrite E2. cbn [bind]. rewrite HG2. reflexivity. }
  unfold qp_f. rewrite D1, D2, Hr2, Hd2, Hn2. reflexivity.
Qed.

Lemma late_of_prior g g2 P D : pg_wf g -> pg_Q g <> None -> pg_shared g = [] -> setPrior g 0 P = Ok g2 ->
  late g 0 P D (setNeighborPoses g2 D).
Proof.
  intros W HQ HS E. unfold late. destruct (pg_Q g) as [Q|] eqn:PQ; [|congruence].
  unfold setPrior in E. apply check_Ok in E. destruct E as [I1 E]. apply check_Ok in E. destruct E as [I2 E].
  apply check_Ok in E. destruct E as [I3 E]. injection E as <-.
  destruct (pg_G g) as [G|] eqn:PG.
  - exists g, (set_pg_priors g (mset N.ltb 0%N P (pg_priors g))). unfold constructDataMatrices. rewrite PQ. cbn [bind negb]. rewrite PG.
    split; [reflexivity|]. split; [|reflexivity]. unfold setPrior. rewrite I1, I2, I3. reflexivity.
  - exists (set_pg_G g (Some (Gval g))), (set_pg_priors (set_pg_G g (Some (Gval g))) (mset N.ltb 0%N P (pg_priors g))).
    unfold constructDataMatrices. rewrite PQ. cbn [bind negb]. rewrite PG. unfold constructG. rewrite (buildG_spec g W), HS. cbn [existsb bind].
    split; [reflexivity|]. split; [|destruct g; reflexivity]. unfold setPrior.
    change (pg_n (set_pg_G g (Some (Gval g)))) with (pg_n g). change (pg_d (set_pg_G g (Some (Gval g)))) with (pg_d g).
    change (pg_r (set_pg_G g (Some (Gval g)))) with (pg_r g). change (pg_priors (set_pg_G g (Some (Gval g)))) with (pg_priors g).
    rewrite I1, I2, I3. reflexivity.
Qed.

Lemma anchoring_prior x a o P a1 : AInv a -> a_state a = INITIALIZED -> anchoring a o P -> ag_step x a o = Ok a1 ->
  exists g2, setPrior (a_pg a) 0 P = Ok g2 /\ a1 = sa_pg a g2.
Proof.
  intros I HS [->|[-> HP]] E; cbn [ag_step] in E; apply bind_Ok in E; destruct E as [[a' b'] [E E']]; injection E' as <-.
  - unfold ag_anchorFirstPoseWith in E. apply check_Ok in E. destruct E as [_ E]. apply check_Ok in E. destruct E as [_ E].
    apply bind_Ok in E. destruct E as [g2 [E2 E]]. injection E as <- _. eauto.
  - unfold ag_anchorFirstPose in E. destruct (Nat.ltb 0 (num_poses a)) eqn:L.
    + rewrite HP in E. cbn [bind] in E. apply check_Ok in E. destruct E as [_ E]. apply bind_Ok in E. destruct E as [g2 [E2 E]].
      injection E as <- _. eauto.
    + exfalso. apply Nat.ltb_ge in L. destruct (iv_X a I ltac:(congruence)) as [N0 _]. unfold num_poses in L. lia.
Qed.

Theorem late_agent x id p os a0 a o P a1 acc : newAgent x id p = Ok a0 -> ag_run x a0 os = Ok a -> Forall aop_ok os ->
  spoilt x false a0 os = false -> pg_Q (a_pg a) <> None -> pg_shared (a_pg a) = [] -> pg_priors (a_pg a) = [] ->
  anchoring a o P -> ag_step x a o = Ok a1 -> (exists k, (k < p_r (a_params a))%nat /\ P k (p_d (a_params a)) <> 0) ->
  exists g3, (forall f f', (forall Y, f g3 Y = f' g3 Y) -> ag_updateX f a1 true acc = ag_updateX f' a1 true acc) /\
    forall X g' v, qp_f g3 X = Ok (g', v) -> forall c, exists u X' w,
      translated (p_r (a_params a)) (p_d (a_params a)) (num_poses a) u X X' /\ qp_f g3 X' = Ok (g', w) /\ w < c.
Proof.
  intros E0 E F SP HQ HSh HPr HA EA HP. destruct (reach_J _ _ _ _ _ _ E0 E F) as [I HJ]. rewrite SP in HJ. destruct HJ as (U & HS & O).
  assert (ST : a_state a = INITIALIZED) by (destruct (a_state a) eqn:Hst; auto; exfalso; apply HQ; apply HS; congruence).
  destruct (anchoring_prior _ _ _ _ _ I ST HA EA) as (g2 & EP & ->).
  set (D := if acc then a_naux a else a_ndict a).
  pose proof (iv_pg a I) as W.
  pose proof (late_of_prior _ _ _ D W HQ HSh EP) as L.
  assert (HD : handed_ok (p_r (a_params a)) (p_d (a_params a)) D).
  { assert (B : msorted pose_ltb D /\ forall q v, mfind pose_ltb q D = Some v ->
      In q (pg_npub (a_pg a)) /\ mrows v = p_r (a_params a) /\ mcols v = (p_d (a_params a) + 1)%nat)
      by (unfold D; destruct acc; [apply (iv_na a I)|apply (iv_nd a I)]).
    destruct B as [B1 B2]. split; [exact B1|]. intros q Z HZ.
    destruct (B2 q Z) as (_ & B3 & B4); [apply (mfind_In _ pose_total); auto|]. split; [exact B3|lia]. }
  destruct (late_facts _ _ _ _ _ W (O eq_refl) (proj1 HD) L) as (W3 & _ & _ & _ & _ & _ & _ & _ & _ & _ & HG & Q & HQ3 & _).
  assert (SH3 : pg_shared (setNeighborPoses g2 D) = []).
  { unfold setPrior in EP. apply check_Ok in EP. destruct EP as [_ EP]. apply check_Ok in EP. destruct EP as [_ EP].
    apply check_Ok in EP. destruct EP as [_ EP]. injection EP as <-. exact HSh. }
  destruct (constructDataMatrices (setNeighborPoses g2 D)) as [[g3 b]| |] eqn:EC.
  2,3: exfalso; unfold constructDataMatrices in EC; rewrite HQ3 in EC; cbn [bind negb] in EC; rewrite HG in EC; unfold constructG in EC;
    rewrite (buildG_spec _ W3), SH3 in EC; discriminate.
  assert (b = true) as ->.
  { unfold constructDataMatrices in EC. rewrite HQ3 in EC. cbn [bind negb] in EC. rewrite HG in EC. unfold constructG in EC.
    rewrite (buildG_spec _ W3), SH3 in EC. cbn in EC. congruence. }
  exists g3. split.
  - intros f f' A. unfold ag_updateX. cbn [negb].
    change (setNeighborPoses (a_pg (sa_pg a g2)) (if acc then a_naux (sa_pg a g2) else a_ndict (sa_pg a g2))) with (setNeighborPoses g2 D).
    rewrite EC. cbn [bind negb]. rewrite A. reflexivity.
  - intros X g' v EX c. rewrite (qp_f_built _ _ _ EC) in EX.
    destruct (late_unbounded_core _ _ _ _ _ _ _ _ _ _ W (O eq_refl) (iv_r a I) (iv_d a I) U HD HSh HPr L HP EX c) as (u & X' & w & T1 & T2 & T3).
    exists u, X', w. split; [exact T1|]. split; [|exact T3]. rewrite (qp_f_built _ _ _ EC). exact T2.
Qed.

(** One odometry edge; the agent iterates, then its first pose is anchored off
    the origin. *)
Definition stayR : Optimizer R := fun g X => (None, X).
Definition lops : list (aop R) := rops2 ++ [AIterate stayR true].
Definition rP : Mx R := mlit 3 4 [[1; 0; 0; 1]; [0; 1; 0; 0]; [0; 0; 1; 0]].
Lemma lops_ok : Forall aop_ok lops.
Proof. apply Forall_app. split; [apply rops2_ok|]. constructor; [exact I|constructor]. Qed.

Definition some_b {A} (o : option A) : bool := match o with Some _ => true | None => false end.
Definition lrun : bool :=
  match newAgent rx 0 rp3 with
  | Ok a0 =>
      match ag_run rx a0 lops with
      | Ok a =>
          negb (spoilt rx false a0 lops) && some_b (pg_Q (a_pg a)) && Nat.eqb (length (pg_shared (a_pg a))) 0 &&
          Nat.eqb (length (pg_priors (a_pg a))) 0 && Nat.eqb (length (measurements (a_pg a))) 1 &&
          Nat.eqb (p_r (a_params a)) 3 && Nat.eqb (p_d (a_params a)) 3 &&
          match ag_step rx a (AAnchorWith rP) with
          | Ok a1 =>
              match ag_updateX stayR a1 true false, constructDataMatrices (setNeighborPoses (a_pg a1) (a_ndict a1)) with
              | Ok (_, true), Ok (g3, true) => match qp_f g3 (pa_X (a_X a1)) with Ok _ => true | _ => false end
              | _, _ => false
              end
          | _ => false
          end
      | _ => false
      end
  | _ => false
  end.
Lemma lrun_true : lrun = true. Proof. vm_compute. reflexivity. Qed.

Lemma late_agent_ex : exists a0 a a1 a2 g3 g' v, newAgent rx 0 rp3 = Ok a0 /\ ag_run rx a0 lops = Ok a /\ Forall aop_ok lops /\
  spoilt rx false a0 lops = false /\ pg_Q (a_pg a) <> None /\ pg_shared (a_pg a) = [] /\ pg_priors (a_pg a) = [] /\
  length (measurements (a_pg a)) = 1%nat /\
  anchoring a (AAnchorWith rP) rP /\ ag_step rx a (AAnchorWith rP) = Ok a1 /\
  (exists k, (k < p_r (a_params a))%nat /\ rP k (p_d (a_params a)) <> 0) /\
  ag_updateX stayR a1 true false = Ok (a2, true) /\
  constructDataMatrices (setNeighborPoses (a_pg a1) (a_ndict a1)) = Ok (g3, true) /\ qp_f g3 (pa_X (a_X a1)) = Ok (g', v).
Proof.
  pose proof lrun_true as T. unfold lrun in T.
  destruct (newAgent rx 0 rp3) as [a0| |] eqn:E0; try discriminate.
  destruct (ag_run rx a0 lops) as [a| |] eqn:E1; try discriminate.
  destruct (ag_step rx a (AAnchorWith rP)) as [a1| |] eqn:E2; try (rewrite andb_false_r in T; discriminate).
  destruct (ag_updateX stayR a1 true false) as [[a2 b2]| |] eqn:E3; try (rewrite andb_false_r in T; discriminate).
  destruct b2; try (rewrite andb_false_r in T; discriminate).
  destruct (constructDataMatrices (setNeighborPoses (a_pg a1) (a_ndict a1))) as [[g3 b3]| |] eqn:E4; try (rewrite andb_false_r in T; discriminate).
  destruct b3; try (rewrite andb_false_r in T; discriminate).
  destruct (qp_f g3 (pa_X (a_X a1))) as [[g' v]| |] eqn:E5; try (rewrite andb_false_r in T; discriminate).
  repeat (apply andb_true_iff in T; destruct T as [T ?]).
  exists a0, a, a1, a2, g3, g', v. split; [reflexivity|]. split; [exact E1|]. split; [exact lops_ok|].
  split; [apply negb_true_iff; auto|]. split; [destruct (pg_Q (a_pg a)); [discriminate|discriminate]|].
  split; [destruct (pg_shared (a_pg a)); [reflexivity|discriminate]|]. split; [destruct (pg_priors (a_pg a)); [reflexivity|discriminate]|].
  split; [apply Nat.eqb_eq; auto|]. split; [left; reflexivity|]. split; [exact E2|].
  split; [|auto].
  exists 0%nat. repeat match goal with H : Nat.eqb (p_r _) _ = true |- _ => apply Nat.eqb_eq in H; rewrite H
    | H : Nat.eqb (p_d _) _ = true |- _ => apply Nat.eqb_eq in H; rewrite H end. split; [lia|]. cbn. lra.
Qed.
