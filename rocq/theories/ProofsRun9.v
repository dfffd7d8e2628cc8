(** The example program with a robot that has no odometry (C56). *)
From Coq Require Import List NArith ZArith Bool Arith Lia Reals Lra.
From Verif Require Import Base SMap Num ModelTypes ModelPoseGraph ModelPoses ModelProblem ModelOptimizer ModelAgent ModelExample ModelExampleRun
  SpecPoseGraph SpecCost SpecSolver SpecAgent SpecExample SpecRun ProofsPoseGraph ProofsExample ProofsExample2 ProofsAgent ProofsAgent2 ProofsAgent5 ProofsRun7.
Import ListNotations.
Local Open Scope res_scope.
Local Open Scope N_scope.

Section N.
Context (x : Ext R) (ls : LocalSolvers R) (p : AgentParams R) (st : Split R) (k : N).
Definition waits (ags : list (Agent R)) : Prop := forall a, nth_error ags (N.to_nat k) = Some a -> a_state a = WAIT_FOR_DATA.

Lemma robot_waits j ags ags' : nth (N.to_nat k) (sp_odom st) [] = [] -> length ags = N.to_nat j -> waits ags -> ex_robot x ls p st ags j = Ok ags' ->
  length ags' = N.to_nat (j + 1) /\ waits ags'.
Proof.
  intros Ho Ln W E. unfold ex_robot in E. apply bind_Ok in E. destruct E as (a & Ea & E). apply bind_Ok in E. destruct E as (a1 & E1 & E).
  apply bind_Ok in E. destruct E as (a2 & E2 & E). apply bind_Ok in E. destruct E as (a3 & E3 & E). injection E as <-.
  split; [rewrite app_length, Ln; cbn; lia|]. intros b Hb. destruct (N.eq_dec j k) as [->|Nj].
  - rewrite nth_error_app2, Ln, Nat.sub_diag in Hb by lia. injection Hb as <-.
    destruct (new_form _ _ _ _ Ea) as (X & g & YL & _ & Eg & Fa & _).
    assert (S1 : a_state a1 = WAIT_FOR_DATA /\ a_pg a1 = g).
    { destruct (0 <? k).
      - apply bind_Ok in E1. destruct E1 as (a0 & _ & E1). unfold ag_setLiftingMatrix in E1. apply check_Ok in E1. destruct E1 as [_ E1].
        apply check_Ok in E1. destruct E1 as [_ E1]. injection E1 as <-. rewrite Fa. split; reflexivity.
      - injection E1 as <-. rewrite Fa. split; reflexivity. }
    destruct S1 as [S1 S2].
    rewrite Ho in E2. unfold ag_setMeasurements in E2. apply check_Ok in E2. destruct E2 as [_ E2]. apply check_Ok in E2. destruct E2 as [_ E2]. injection E2 as <-.
    unfold ag_initialize in E3. rewrite S1 in E3. cbn [state_eqb negb] in E3.
    assert (Z : pg_n (a_pg (ag_endOptimizationLoop a1)) = 0%N).
    { rewrite endLoop_form. change (a_pg (sa_thread a1 false)) with (a_pg a1). rewrite S2.
      unfold newPoseGraph in Eg. apply check_Ok in Eg. destruct Eg as [_ Eg]. injection Eg as <-. reflexivity. }
    cbv zeta in E3. rewrite Z in E3. cbn [N.eqb] in E3. injection E3 as <-. rewrite endLoop_form. exact S1.
  - assert (N.to_nat k < length ags \/ N.to_nat k > length ags)%nat as [L|L] by lia.
    + rewrite nth_error_app1 in Hb by auto. auto.
    + rewrite nth_error_app2 in Hb by lia. destruct (N.to_nat k - length ags)%nat as [|q] eqn:Q; [lia|]. destruct q; discriminate.
Qed.

Lemma team_waits : forall num ags, nth (N.to_nat k) (sp_odom st) [] = [] -> ex_team x ls p num st = Ok ags -> length ags = N.to_nat num /\ waits ags.
Proof.
  intros num. induction num as [|j IH] using N.peano_ind; intros ags Ho E.
  - injection E as <-. split; [reflexivity|]. intros b Hb. destruct (N.to_nat k); discriminate.
  - unfold ex_team in *. rewrite <- N.add_1_r, range_S, foldM_app in E. apply bind_Ok in E. destruct E as (ags1 & E1 & E).
    destruct (IH _ Ho E1) as [L W]. cbn [foldM] in E. apply bind_Ok in E. destruct E as (ags2 & E2 & E). injection E as <-.
    rewrite <- N.add_1_r. apply (robot_waits j ags1); auto.
Qed.

Lemma start_fails d r n m X : forall j ags ags', k < j -> (N.to_nat k < length ags)%nat -> waits ags ->
  foldM (fun ags robot => do a <- at_ ags robot; do a <- ag_setX a (robot_block d r n m robot X); Ok (put ags robot a)) ags (range 0 j) = Ok ags' -> False.
Proof.
  intros j ags ags' Hj Lk W.
  set (f := fun (ags : list (Agent R)) robot => do a <- at_ ags robot; do a <- ag_setX a (robot_block d r n m robot X); Ok (put ags robot a)).
  assert (K : forall i ags1, i <= k -> foldM f ags (range 0 i) = Ok ags1 -> length ags1 = length ags /\ waits ags1).
  { intros i. induction i as [|i IH] using N.peano_ind; intros ags1 Hi E.
    - injection E as <-. auto.
    - rewrite <- N.add_1_r, range_S, foldM_app in E. apply bind_Ok in E. destruct E as (ags2 & E2 & E).
      destruct (IH _ ltac:(lia) E2) as [L2 W2]. cbn [foldM] in E. apply bind_Ok in E. destruct E as (ags3 & E3 & E). injection E as <-.
      unfold f in E3. apply bind_Ok in E3. destruct E3 as (b & Eb & E3). apply bind_Ok in E3. destruct E3 as (c & _ & E3). injection E3 as <-.
      split; [unfold put; rewrite list_update_length; exact L2|]. intros e He. apply W2. unfold put in He. 
      rewrite list_update_other in He; auto. lia. }
  intros E. replace j with (k + 1 + (j - (k + 1))) in E by lia. remember (j - (k + 1)) as q. clear Heqq Hj.
  revert ags' E. induction q as [|q IH] using N.peano_ind; intros ags' E.
  - rewrite N.add_0_r, range_S, foldM_app in E. apply bind_Ok in E. destruct E as (ags1 & E1 & E). destruct (K k ags1 ltac:(lia) E1) as [L1 W1].
    cbn [foldM] in E. apply bind_Ok in E. destruct E as (ags2 & E2 & _). unfold f in E2. apply bind_Ok in E2. destruct E2 as (b & Eb & E2).
    apply bind_Ok in E2. destruct E2 as (c & Ec & _). unfold at_ in Eb. destruct (nth_error ags1 (N.to_nat k)) as [b'|] eqn:Nb; [|discriminate]. injection Eb as <-.
    unfold ag_setX in Ec. rewrite (W1 _ Nb) in Ec. discriminate.
  - replace (k + 1 + N.succ q) with (k + 1 + q + 1) in E by lia. rewrite range_S, foldM_app in E. apply bind_Ok in E. destruct E as (ags1 & E1 & _). apply (IH ags1 E1).
Qed.
End N.

(** A robot without an odometry edge: the run does not complete. *)
Theorem example_no_odometry : forall x ls St (L : Lib R St) chordal opt r acc iters X0 n m ds k,
  sizes_ok n m -> Forall (edge_in n) ds -> k < m ->
  (forall e, In e ds -> next_pose e = true -> owns n m k (mp1 e) -> ~ owns n m k (mp2 e)) ->
  forall out, example x ls L chordal opt r acc iters X0 m n ds <> Ok out.
Proof.
  intros x ls St L chordal opt r acc iters X0 n m ds k Hs F Hk Ho out E. unfold example in E.
  apply bind_Ok in E. destruct E as (g & _ & E). apply bind_Ok in E. destruct E as (g1 & _ & E). rewrite (split_table n m Hs ds F) in E. cbn [bind] in E.
  apply bind_Ok in E. destruct E as (ags & E1 & E). apply bind_Ok in E. destruct E as (T & _ & E). unfold require in E.
  match type of E with (if ?c then _ else _) = _ => destruct c; [|discriminate] end.
  apply bind_Ok in E. destruct E as (ags1 & E2 & _). unfold ex_start in E2.
  match type of E1 with ex_team _ _ _ _ ?s = _ => assert (Z0 : nth (N.to_nat k) (sp_odom s) [] = []) end.
  { cbn [sp_odom]. rewrite table_nth by auto. replace (filter (od n m k) ds) with (@nil (Meas R)); [reflexivity|]. symmetry.
    assert (Z : forall e, In e ds -> od n m k e = false).
    { intros e He. unfold od, both. destruct (next_pose e) eqn:Ne; [|apply andb_false_r]. rewrite andb_true_r.
      destruct (ownsb n m k (mp1 e)) eqn:O1; [|reflexivity]. destruct (ownsb n m k (mp2 e)) eqn:O2; [|reflexivity]. destruct (Ho e He Ne O1 O2). }
    clear - Z. induction ds as [|e l IH]; [reflexivity|]. cbn [filter]. rewrite (Z e) by (left; reflexivity). apply IH. intros; apply Z. right; auto. }
  destruct (team_waits x ls _ _ k m ags Z0 E1) as [Ln W].
  refine (start_fails k _ r n m _ m ags ags1 Hk _ W E2). lia.
Qed.

(** One pose per robot. *)
Theorem example_one_pose : forall x ls St (L : Lib R St) chordal opt r acc iters X0 n m ds,
  sizes_ok n m -> Forall (edge_in n) ds -> 2 <= m -> n / m = 1 ->
  forall out, example x ls L chordal opt r acc iters X0 m n ds <> Ok out.
Proof.
  intros x ls St L chordal opt r acc iters X0 n m ds Hs F Hm Q. apply (example_no_odometry x ls St L chordal opt r acc iters X0 n m ds 0); auto; [lia|].
  intros e He Hn O1 O2. unfold owns, ownsb in O1, O2. rewrite Q in *. unfold next_pose in Hn. apply N.eqb_eq in Hn.
  rewrite !andb_true_iff, orb_true_iff, !N.ltb_lt, N.eqb_eq in O1, O2. lia.
Qed.
