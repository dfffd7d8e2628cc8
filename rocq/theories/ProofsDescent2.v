(** Schedules that meet the discipline of C65. *)
From Coq Require Import List NArith ZArith Bool Arith Lia Lra Reals Permutation.
From Verif Require Import Base SMap Num RSum ModelTypes ModelPoseGraph ModelProblem ModelRobust ModelPoses ModelSolver ModelAgent ModelExample ModelTeam
  SpecPoseGraph SpecPGHist SpecCost SpecAgent SpecRun SpecStatus SpecTeam SpecDescent ProofsPoseGraph ProofsPGHist ProofsPGData ProofsCost ProofsCost2 ProofsCost4
  ProofsAgent ProofsAgent2 ProofsAgent3 ProofsAgent4 ProofsAgent5 ProofsAgent6 ProofsStatus ProofsExample ProofsRun ProofsRun2 ProofsRun3 ProofsTeam ProofsTeam2 ProofsTeam3 ProofsDescent.
Import ListNotations.
Local Open Scope res_scope.
Implicit Types (g : PoseGraph R) (a : Agent R) (t : Team R).

Lemma list_same {A} : forall l1 l2 : list A, (forall i, nth_error l1 i = nth_error l2 i) -> l1 = l2.
Proof.
  induction l1 as [|u l1 IH]; intros [|v l2] E; auto; try (specialize (E 0%nat); discriminate).
  f_equal; [specialize (E 0%nat); cbn in E; congruence|]. apply IH. intros i. apply (E (Datatypes.S i)).
Qed.

(** ** Robots without common edges *)
Lemma call_other x t j o t' : tm_step x t (TCall j o) = Ok t' -> forall i a, i <> j -> robot t' i a <-> robot t i a.
Proof.
  cbn [tm_step]. intros E i a N. dres E. injection E as <-. split; [|apply put_other; auto].
  intros K. apply put_robot in K. destruct K as [[-> _]|[_ K]]; [congruence|auto].
Qed.
Lemma parallel_careful r d x opt js : (forall j, In j js -> opt_sized (opt j) /\ descending (opt j)) -> forall t, NoDup js -> apart t js ->
  (forall j, In j js -> uptodate r d t j) -> careful r d x t (steps opt js).
Proof.
  intros HO. induction js as [|j js IH]; intros t ND AP UD; [exact Logic.I|]. inversion ND; subst. change (steps opt (j :: js)) with (TCall j (AIterate (opt j) true) :: steps opt js). split.
  - destruct (HO j) as [O1 O2]; [left; auto|]. split; [auto|]. split; [auto|]. apply UD. left. auto.
  - intros t' E. pose proof (call_other x t j _ t' E) as CO. assert (NE : forall i, In i js -> i <> j) by (intros i Hi ->; auto).
    apply IH; auto.
    + intros i Hi. apply HO. right. auto.
    + intros i k a e Hi Hk K He. apply (AP i k a e); cbn; auto. apply CO; auto.
    + intros i Hi a e K He. apply (CO i a (NE i Hi)) in K. destruct (UD i (or_intror Hi) a e K He) as (b & Kb & F). exists b. split; [|exact F].
      apply CO; auto. apply (AP i j a e); cbn; auto.
Qed.
Lemma careful_app r d x os1 os2 : forall t, careful r d x t os1 -> (forall t', tm_run x t os1 = Ok t' -> careful r d x t' os2) -> careful r d x t (os1 ++ os2).
Proof.
  induction os1 as [|o os1 IH]; intros t C1 C2; cbn [app]; [apply C2; reflexivity|]. destruct C1 as [Q1 Q2]. split; auto.
  intros t' E. apply IH; auto. intros t2 E2. apply C2. cbn. rewrite E. exact E2.
Qed.
Lemma run_ok x P m os t os' t' : treach x P m os t -> Forall (top_ok P) os' -> tm_run x t os' = Ok t' -> treach x P m (os ++ os') t'.
Proof. intros [E F] F' E'. split; [|apply Forall_app; auto]. dres E. rewrite E0. cbn. unfold tm_run in *. rewrite foldM_app, E. exact E'. Qed.

Theorem team_parallel x r d m P M Pri os0 t0 os t opt js t' : treach x P m os0 t0 -> (forall k a, robot t0 k a -> member r d M Pri k (P k) a) ->
  Forall (top_ok P) os -> careful r d x t0 os -> tm_run x t0 os = Ok t ->
  NoDup js -> apart t js -> (forall j, In j js -> opt_sized (opt j) /\ descending (opt j) /\ uptodate r d t j) -> tm_run x t (steps opt js) = Ok t' ->
  (team_cost r d M Pri (range 0 m) t' <= team_cost r d M Pri (range 0 m) t)%R.
Proof.
  intros R HM F Q E ND AP HO E'. destruct (descends x r d m P M Pri os0 t0 R HM os os0 t0 t R (core0 x r d m P M Pri os0 t0 R HM) F Q E) as [C _].
  apply (descends x r d m P M Pri os0 t0 R HM (steps opt js) (os0 ++ os) t t'); auto.
  - apply run_ok with t0; auto.
  - unfold steps. apply Forall_forall. intros o Ho. apply in_map_iff in Ho. destruct Ho as (j & <- & _). exact Logic.I.
  - apply parallel_careful; auto; intros j Hj; destruct (HO j Hj) as (? & ? & ?); auto.
Qed.

(** ** Rounds of the robots one after another *)
Section D.
Context (x : Ext R) (r d : nat) (m : N) (P : N -> AgentParams R) (M : list (Meas R)) (Pri : N -> list (N * Mx R)) (os0 : list (top R)) (t0 : Team R).
Context (nb : N -> list N) (opt : N -> Optimizer R).
Hypothesis (R0 : treach x P m os0 t0) (HM : forall k a, robot t0 k a -> member r d M Pri k (P k) a).
Hypothesis (HL : forall k, costType (p_robust (P k)) = L2).
Hypothesis (HO : forall j, opt_sized (opt j) /\ descending (opt j)).
Hypothesis (HN : forall j k, In k (nb j) -> k <> j /\ (k < m)%N).
Hypothesis (HNb : forall j a e, robot t0 j a -> In e (pg_shared (a_pg a)) -> In (robot_id (other_pose j e)) (nb j)).
Notation cost := (team_cost r d M Pri (range 0 m)).

Definition lifted t : Prop := forall k a, robot t k a -> a_YLift a <> None.
Lemma robot_ex os t k : treach x P m os t -> (k < m)%N -> exists a, robot t k a.
Proof.
  intros R Hk. pose proof (ti_len _ _ _ _ _ (tinv _ _ _ _ _ R)) as L. unfold robot. destruct (nth_error (tm_agents t) (N.to_nat k)) as [a|] eqn:E; [eauto|].
  apply nth_error_None in E. lia.
Qed.

(** The other end of a shared edge has the edge, too. *)
Lemma both_ends j k a0 b0 e : robot t0 j a0 -> robot t0 k b0 -> In e (pg_shared (a_pg a0)) -> robot_id (other_pose j e) = k -> k <> j ->
  In e (pg_shared (a_pg b0)) /\ own_pose k e = other_pose j e.
Proof.
  intros Ka Kb He Hk N. destruct (robot_id_of _ _ _ _ _ _ _ (tinv _ _ _ _ _ R0) Ka) as (Ia & _ & Inva). destruct (robot_id_of _ _ _ _ _ _ _ (tinv _ _ _ _ _ R0) Kb) as (Ib & _ & Invb).
  pose proof (wf_shared _ (iv_pg _ Inva) e He) as Sh. rewrite (iv_id _ Inva), Ia in Sh. apply shared_ends in Sh.
  assert (Hm : In e M).
  { pose proof (mb_knows _ _ _ _ _ _ _ (HM j a0 Ka)) as Kn. assert (In e (filter (SpecCost.touches j) M)).
    { eapply Permutation_in; [exact Kn|]. rewrite !in_app_iff. auto. } apply filter_In in H. apply H. }
  assert (He2 : In e (pg_odom (a_pg b0) ++ pg_priv (a_pg b0) ++ pg_shared (a_pg b0))).
  { pose proof (mb_knows _ _ _ _ _ _ _ (HM k b0 Kb)) as Kn. eapply Permutation_in; [symmetry; exact Kn|]. apply filter_In. split; auto. unfold SpecCost.touches.
    unfold other_pose in Hk. destruct (N.eqb_spec (mr1 e) j); cbn in Hk; rewrite Hk, N.eqb_refl; [apply orb_true_r|reflexivity]. }
  assert (Nf : (mr1 e = j /\ mr2 e = k) \/ (mr2 e = j /\ mr1 e = k)).
  { unfold other_pose in Hk. destruct (N.eqb_spec (mr1 e) j); cbn in Hk; destruct Sh as [[? ?]|[? ?]]; try congruence; auto. }
  assert (NS : is_odom k e = false /\ is_priv k e = false).
  { unfold is_odom, is_priv. destruct Nf as [[E1 E2]|[E1 E2]]; rewrite E1, E2.
    - replace (j =? k)%N with false by (symmetry; apply N.eqb_neq; auto). rewrite ?andb_false_l, ?andb_false_r. auto.
    - replace (j =? k)%N with false by (symmetry; apply N.eqb_neq; auto). rewrite ?andb_false_l, ?andb_false_r. auto. }
  rewrite !in_app_iff in He2. destruct NS as [N1 N2]. split.
  - destruct He2 as [H|[H|H]]; auto; exfalso.
    + apply (wf_odom _ (iv_pg _ Invb)) in H. rewrite (iv_id _ Invb), Ib in H. congruence.
    + apply (wf_priv _ (iv_pg _ Invb)) in H. rewrite (iv_id _ Invb), Ib in H. congruence.
  - unfold own_pose, other_pose. destruct Nf as [[E1 E2]|[E1 E2]]; rewrite E1, E2, N.eqb_refl.
    + destruct (N.eqb_spec j k); congruence.
    + destruct (N.eqb_spec k j); congruence.
Qed.

Definition gathered t j (ks : list N) : Prop := forall a e, robot t j a -> In e (pg_shared (a_pg a)) -> In (robot_id (other_pose j e)) ks ->
  exists b, robot t (robot_id (other_pose j e)) b /\ fresh r d j a b e.

Lemma pass_step os t j k ks : treach x P m os t -> core t0 t -> lifted t -> (j < m)%N -> (k < m)%N -> k <> j -> gathered t j ks -> (forall i, In i ks -> i <> j) ->
  let ops := pass k j (length (tm_status t)) (length (tm_poses t)) in
  exists t', tm_run x t ops = Ok t' /\ treach x P m (os ++ ops) t' /\ core t0 t' /\ lifted t' /\ gathered t' j (k :: ks) /\
    length (tm_status t') = Datatypes.S (length (tm_status t)) /\ length (tm_poses t') = Datatypes.S (length (tm_poses t)) /\ (cost t' <= cost t)%R.
Proof.
  intros R C Lf Hj Hk N Gt Nks ops. destruct (robot_ex os t j R Hj) as (a & Ka). destruct (robot_ex os t k R Hk) as (b & Kb).
  destruct (C j a Ka) as (Sa & a0 & Ka0 & La). destruct (C k b Kb) as (Sb & b0 & Kb0 & Lb).
  destruct (robot_id_of _ _ _ _ _ _ _ (tinv _ _ _ _ _ R) Ka) as (Ia & Pa & Inva).
  destruct (HM j a0 Ka0) as [Er Ed _ _ _ _ _ _ _ _ _ _]. destruct (HM k b0 Kb0) as [Er' Ed' _ _ _ _ _ _ _ _ _ _].
  destruct (team_pass x P m os t j k a b R Ka Kb) as (t' & c & E & R' & Ka' & Kb' & Oth & L1 & L2 & V1 & V2); auto; try congruence.
  { apply (Lf j a Ka). }
  assert (All : forall i w, robot t' i w -> exists w0, robot t i w0 /\ a_state w = a_state w0 /\ a_pg w = a_pg w0 /\ a_YLift w = a_YLift w0 /\ a_X w = a_X w0).
  { intros i w Kw. destruct (N.eq_dec i j) as [->|N1].
    - unfold robot in Ka', Kw. rewrite Ka' in Kw. injection Kw as <-. exists a. auto 6.
    - destruct (N.eq_dec i k) as [->|N2].
      + unfold robot in Kb', Kw. rewrite Kb' in Kw. injection Kw as <-. exists b. auto 6.
      + apply Oth in Kw; auto. exists w. auto 6. }
  exists t'. split; [exact E|]. split; [exact R'|].
  assert (C' : core t0 t').
  { intros i w Kw. destruct (All i w Kw) as (w0 & K0 & A1 & A2 & _). destruct (C i w0 K0) as (S0 & z & Kz & Lz). split; [congruence|]. exists z. split; auto. rewrite A2. exact Lz. }
  split; [exact C'|]. split. { intros i w Kw. destruct (All i w Kw) as (w0 & K0 & _ & _ & A3 & _). rewrite A3. apply (Lf i w0 K0). }
  split; [|split; [exact L1|split; [exact L2|]]].
  - intros w e Kw He Hi. unfold robot in Ka', Kw. rewrite Ka' in Kw. injection Kw as <-. cbn in He.
    assert (Tq : SpecAgent.touches a (other_pose j e)) by (exists e; rewrite Ia; auto).
    assert (Up : robot_id (other_pose j e) = k -> exists b', robot t' (robot_id (other_pose j e)) b' /\ fresh r d j (sa_ndict (ag_setNeighborStatus a (a_status (ag_getStatus b))) c) b' e).
    { intros Eq. exists (ag_getStatus b). rewrite Eq. split; [exact Kb'|]. destruct (like_fields _ _ La) as (_ & _ & _ & A4 & _). destruct (like_fields _ _ Lb) as (_ & _ & _ & B4 & _).
      destruct (both_ends j k a0 b0 e Ka0 Kb0) as [M1 M2]; auto; [congruence|].
      destruct (V1 (other_pose j e) Tq) as (v & F & B). { exists e. split; [congruence|exact M2]. }
      exists v. split; [exact F|]. rewrite Er', Ed' in B. exact B. }
    destruct (N.eq_dec (robot_id (other_pose j e)) k) as [Eq|Ne]; [apply Up; auto|].
    destruct Hi as [Hi|Hi]; [congruence|]. destruct (Gt a e Ka He Hi) as (b' & Kb2 & v & F & B).
    exists b'. split. { apply Oth; auto. } exists v. split; [|exact B]. cbn [a_ndict sa_ndict]. rewrite V2; [exact F|]. right. intros (e' & He' & Q).
    apply Ne. rewrite <- Q. destruct (robot_id_of _ _ _ _ _ _ _ (tinv _ _ _ _ _ R) Kb) as (Ib & _ & Invb). pose proof (own_id b e' (other_pose j e) Invb He') as OI.
    rewrite Ib in OI. rewrite Q. apply OI. exact Q.
  - right. unfold team_cost. f_equal. unfold est. assert (Em : map (fun a => pa_X (a_X a)) (tm_agents t') = map (fun a => pa_X (a_X a)) (tm_agents t)).
    { pose proof (ti_len _ _ _ _ _ (tinv _ _ _ _ _ R)) as Le. pose proof (ti_len _ _ _ _ _ (tinv _ _ _ _ _ R')) as Le'.
      apply list_same. intros i. rewrite !nth_error_map. destruct (nth_error (tm_agents t') i) as [w|] eqn:Ew.
      - destruct (All (N.of_nat i) w) as (w0 & K0 & _ & _ & _ & A4). { unfold robot. rewrite Nat2N.id. exact Ew. }
        unfold robot in K0. rewrite Nat2N.id in K0. rewrite K0. cbn. rewrite A4. reflexivity.
      - apply nth_error_None in Ew. rewrite (proj2 (nth_error_None (tm_agents t) i)) by lia. reflexivity. }
    rewrite Em. reflexivity.
Qed.

Lemma gather_run j ks : forall os t done, treach x P m os t -> core t0 t -> lifted t -> (j < m)%N -> (forall k, In k ks -> k <> j /\ (k < m)%N) -> (forall i, In i done -> i <> j) -> gathered t j done ->
  let ops := gather j ks (length (tm_status t)) (length (tm_poses t)) in
  exists t', tm_run x t ops = Ok t' /\ treach x P m (os ++ ops) t' /\ core t0 t' /\ lifted t' /\ gathered t' j (ks ++ done) /\
    length (tm_status t') = (length (tm_status t) + length ks)%nat /\ length (tm_poses t') = (length (tm_poses t) + length ks)%nat /\ (cost t' <= cost t)%R.
Proof.
  induction ks as [|k ks IH]; intros os t done R C Lf Hj Hks Hd Gt; cbn [gather].
  - exists t. rewrite app_nil_r. cbn. rewrite !Nat.add_0_r. do 7 (split; [auto; fail|]). apply Rle_refl.
  - destruct (Hks k (or_introl eq_refl)) as [N Hk].
    destruct (pass_step os t j k done R C Lf Hj Hk N Gt Hd) as (t1 & E1 & R1 & C1 & Lf1 & G1 & S1 & P1 & Le1).
    destruct (IH _ t1 (k :: done) R1 C1 Lf1 Hj) as (t2 & E2 & R2 & C2 & Lf2 & G2 & S2 & P2 & Le2); auto.
    { intros i Hi. apply Hks. right. auto. } { intros i [<-|Hi]; auto. }
    rewrite S1, P1 in E2, R2. exists t2. split. { unfold tm_run in *. rewrite foldM_app, E1. exact E2. }
    split. { rewrite app_assoc. exact R2. } split; auto. split; auto. split.
    { intros a e K He Hi. apply G2; auto. rewrite in_app_iff in *. cbn in *. tauto. }
    cbn [length]. split; [lia|]. split; [lia|]. lra.
Qed.

Lemma rounds_run js : forall os t, treach x P m os t -> core t0 t -> lifted t -> (forall j, In j js -> (j < m)%N) ->
  exists t', tm_run x t (rounds nb opt js (length (tm_status t)) (length (tm_poses t))) = Ok t' /\ (cost t' <= cost t)%R.
Proof.
  induction js as [|j js IH]; intros os t R C Lf Hjs; cbn [rounds]. { exists t. split; [reflexivity|apply Rle_refl]. }
  assert (Hj : (j < m)%N) by (apply Hjs; left; auto).
  destruct (gather_run j (nb j) os t [] R C Lf Hj (HN j)) as (t1 & E1 & R1 & C1 & Lf1 & G1 & S1 & P1 & Le1).
  { intros i []. } { intros a e _ _ []. }
  set (ops := gather j (nb j) (length (tm_status t)) (length (tm_poses t))) in *.
  destruct (robot_ex _ t1 j R1 Hj) as (a & Ka). destruct (C1 j a Ka) as (Sa & a0 & Ka0 & La).
  destruct (robot_id_of _ _ _ _ _ _ _ (tinv _ _ _ _ _ R1) Ka) as (Ia & Pa & Inva). destruct (HO j) as [O1 O2].
  assert (UD : uptodate r d t1 j).
  { intros a' e K' He. apply G1; auto. rewrite app_nil_r. unfold robot in Ka, K'. rewrite Ka in K'. injection K' as <-.
    apply (HNb j a0 e Ka0). destruct (like_fields _ _ La) as (_ & _ & _ & A4 & _). congruence. }
  pose proof (full_uptodate x r d m P t0 (os ++ ops) t1 j a a0 R1 Ka Ka0 La UD) as Fu.
  destruct (iterate_plain_total x (opt j) a (a_pg a0)) as (a' & s & Ei); auto.
  { rewrite Pa. apply (HM j a0 Ka0). } { unfold robust. rewrite Pa, HL. reflexivity. } { apply (core_base r d P M Pri t0 HM j a0 Ka0). }
  destruct (iterate_put x r d m P M Pri os0 t0 R0 HM (os ++ ops) t1 j a a' s (opt j) R1 C1 Ka O1 O2 UD Ei) as [C2 Le2].
  assert (Es : tm_step x t1 (TCall j (AIterate (opt j) true)) = Ok (tm_put t1 j a')) by (cbn [tm_step]; rewrite (at_robot _ _ _ Ka); cbn [bind ag_step]; rewrite Ei; reflexivity).
  assert (R2 : treach x P m ((os ++ ops) ++ [TCall j (AIterate (opt j) true)]) (tm_put t1 j a')) by (apply (treach_step x m P _ t1); auto; exact Logic.I).
  assert (Lf2 : lifted (tm_put t1 j a')).
  { intros i w Kw. apply put_robot in Kw. destruct Kw as [[-> ->]|[_ Kw]]; [|apply (Lf1 i w Kw)].
    destruct (iterate_all _ _ _ _ _ _ Ei Inva) as (_ & (_ & _ & _ & _ & _ & _ & _ & _ & _ & _ & _ & _ & Q & _) & _). rewrite Q. apply (Lf1 j a Ka). }
  destruct (IH _ _ R2 C2 Lf2) as (t3 & E3 & Le3). { intros i Hi. apply Hjs. right. auto. }
  change (tm_status (tm_put t1 j a')) with (tm_status t1) in E3. change (tm_poses (tm_put t1 j a')) with (tm_poses t1) in E3. rewrite S1, P1 in E3.
  exists t3. split; [|lra]. unfold tm_run in *. rewrite foldM_app, E1. cbn [bind foldM]. cbn [foldM] in Es |- *. rewrite Es. exact E3.
Qed.
End D.

Theorem team_rounds x r d m P M Pri os0 t0 nb opt js : treach x P m os0 t0 -> (forall k a, robot t0 k a -> member r d M Pri k (P k) a /\ a_YLift a <> None) ->
  (forall k, costType (p_robust (P k)) = L2) -> 
  (forall j, opt_sized (opt j) /\ descending (opt j)) -> (forall j k, In k (nb j) -> k <> j /\ (k < m)%N) ->
  (forall j a e, robot t0 j a -> In e (pg_shared (a_pg a)) -> In (robot_id (other_pose j e)) (nb j)) -> (forall j, In j js -> (j < m)%N) ->
  exists t, tm_run x t0 (rounds nb opt js (length (tm_status t0)) (length (tm_poses t0))) = Ok t /\
    (team_cost r d M Pri (range 0 m) t <= team_cost r d M Pri (range 0 m) t0)%R.
Proof.
  intros R HM HL HO HN HNb Hjs. assert (HM' : forall k a, robot t0 k a -> member r d M Pri k (P k) a) by (intros k a K; apply HM; auto).
  apply (rounds_run x r d m P M Pri os0 t0 nb opt R HM' HL HO HN HNb js os0 t0 R (core0 x r d m P M Pri os0 t0 R HM')); auto. intros k a K. apply (HM k a K).
Qed.
