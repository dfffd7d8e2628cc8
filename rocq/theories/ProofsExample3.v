(** The example's agents, selection and concrete cases (C16). *)
From Coq Require Import List NArith ZArith Bool Arith Lia Permutation Reals Lra.
From Verif Require Import Base SMap Num RSum ModelTypes ModelPoseGraph ModelAgent ModelExample SpecPoseGraph SpecPGHist SpecCost SpecExample ProofsPoseGraph ProofsPGHist ProofsCost4 ProofsExample ProofsExample2.
Import ListNotations.
Local Open Scope N_scope.
Local Open Scope res_scope.

Theorem agent_stores : forall S (HS : Num S) n m (ds : list (Meas S)) st (a : Agent S), sizes_ok n m -> Forall (edge_in n) ds -> NoDup (map pair_of ds) ->
  split_dataset n m ds = Ok (Some st) -> a_thread a = false -> a_state a = WAIT_FOR_DATA -> (p_d (a_params a) <= p_r (a_params a))%nat ->
  Forall (shape_ok (p_d (a_params a))) ds -> a_id a < m ->
  let k := N.to_nat (a_id a) in
  let od := nth k (sp_odom st) [] in let pr := nth k (sp_priv st) [] in let sh := nth k (sp_shared st) [] in
  exists a', ag_setMeasurements a od pr sh = Ok a' /\
    (od = [] -> a' = a) /\ (od <> [] -> pg_odom (a_pg a') = od /\ pg_priv (a_pg a') = pr /\ pg_shared (a_pg a') = sh).
Proof.
  intros S HS n m ds st a Hs F N1 E Ht Ea Hd Sh Hk k odl prl shl. rewrite (split_table n m Hs ds F) in E. injection E as <-.
  unfold odl, prl, shl, k. cbn [sp_odom sp_priv sp_shared]. rewrite !table_nth by auto. unfold ag_setMeasurements. rewrite Ht, Ea. cbn [negb check state_eqb].
  destruct (robot_stores n m Hs (a_id a) _ _ ds Hd F Sh N1) as (g & Eg & G1 & G2 & G3). unfold robot_input in Eg.
  destruct (map (relabel n m) (filter (od n m (a_id a)) ds)) as [|e l] eqn:El.
  - exists a. split; [reflexivity|]. split; [reflexivity|congruence].
  - apply bind_Ok in Eg. destruct Eg as (g0 & -> & Eg). cbn [bind]. rewrite Eg. cbn [bind]. eexists. split; [reflexivity|]. split; [discriminate|]. intros _. cbn. auto.
Qed.

Theorem agent_knows : forall n m (ds ds' : list (Meas R)) st (a a' : Agent R), sizes_ok n m -> Forall (edge_in n) ds -> NoDup (map pair_of ds) ->
  split_dataset n m ds = Ok (Some st) -> a_thread a = false -> a_state a = WAIT_FOR_DATA -> (p_d (a_params a) <= p_r (a_params a))%nat ->
  Forall (shape_ok (p_d (a_params a))) ds -> a_id a < m -> Forall2 (relabelled n m) ds ds' ->
  let k := N.to_nat (a_id a) in
  ag_setMeasurements a (nth k (sp_odom st) []) (nth k (sp_priv st) []) (nth k (sp_shared st) []) = Ok a' -> nth k (sp_odom st) [] <> [] ->
  knows (a_id a) ds' (a_pg a').
Proof.
  intros n m ds ds' st a a' Hs F N1 E Ht Ea Hd Sh Hk F2 k Es Hn.
  destruct (agent_stores R _ n m ds st a Hs F N1 E Ht Ea Hd Sh Hk) as (a2 & E2 & _ & G). fold k in E2, G. assert (a2 = a') by congruence. subst a2. destruct (G Hn) as (G1 & G2 & G3).
  assert (Er : ds' = map (relabel n m) ds).
  { clear - F2 F Hs. induction F2 as [|e e' ds ds' Rl F2 IH]; [reflexivity|]. inversion F; subst. cbn [map]. f_equal; auto.
    pose proof (relabel_ok n m Hs e H1) as Q. destruct H1 as [L1 L2]. destruct Rl as (O1 & O2 & P1 & P2 & ER & Et & Ek & Eta & Ef & Ew), Q as (O1' & O2' & P1' & P2' & ER' & Et' & Ek' & Eta' & Ef' & Ew').
    pose proof (owns_unique n m _ _ _ Hs O1 O1') as U1. pose proof (owns_unique n m _ _ _ Hs O2 O2') as U2. revert U1 U2 P1' P2' ER' Et' Ek' Eta' Ef' Ew'. generalize (relabel n m e).
    intros q U1 U2 P1' P2' ER' Et' Ek' Eta' Ef' Ew'. destruct e', q. cbn in *. subst. f_equal; lia. }
  unfold knows. rewrite G1, G2, G3. rewrite (split_table n m Hs ds F) in E. injection E as <-. cbn [sp_odom sp_priv sp_shared]. unfold k. rewrite !table_nth by auto. rewrite Er.
  exact (input_perm n m Hs (a_id a) ds F).
Qed.

(** ** Selection *)
Lemma max_from l : forall best bv k, (best < k)%nat ->
  let i := max_element best bv k l in
  (i = best /\ Forall (fun x => x <= bv)%R l \/
   (k <= i)%nat /\ exists x, nth_error l (i - k) = Some x /\ (bv < x)%R /\ Forall (fun y => y <= x)%R l /\ forall j y, (j < i - k)%nat -> nth_error l j = Some y -> (y < x)%R).
Proof.
  induction l as [|x l IH]; intros best bv k Hk; [left; split; [reflexivity|constructor]|]. cbn [max_element]. cbn [nltb NumR].
  destruct (Rlt_dec bv x) as [L|L].
  - destruct (IH k x (Datatypes.S k) ltac:(lia)) as [[E F]|(Hi & y & E & Ly & F & Fi)].
    + right. cbv zeta. rewrite E. split; [lia|]. exists x. rewrite Nat.sub_diag. split; [reflexivity|]. split; [exact L|]. split; [constructor; [lra|exact F]|]. intros j y Hj. lia.
    + right. set (i := max_element k x (Datatypes.S k) l) in *. cbv zeta. split; [lia|]. exists y. replace (i - k)%nat with (Datatypes.S (i - Datatypes.S k)) by lia.
      split; [exact E|]. split; [lra|]. split; [constructor; [lra|exact F]|]. intros [|j] z Hj Hz; [injection Hz as <-; exact Ly|]. apply (Fi j z ltac:(lia) Hz).
  - destruct (IH best bv (Datatypes.S k) ltac:(lia)) as [[E F]|(Hi & y & E & Ly & F & Fi)].
    + left. split; [exact E|]. constructor; [lra|exact F].
    + right. set (i := max_element best bv (Datatypes.S k) l) in *. cbv zeta. split; [lia|]. exists y. replace (i - k)%nat with (Datatypes.S (i - Datatypes.S k)) by lia.
      split; [exact E|]. split; [exact Ly|]. split; [constructor; [lra|exact F]|]. intros [|j] z Hj Hz; [injection Hz as <-; lra|]. apply (Fi j z ltac:(lia) Hz).
Qed.
Theorem selection : forall nbrs sel (norms : list R), nbrs <> [] -> norms <> [] ->
  let k := select_next nbrs sel norms in
  exists g, nth_error norms (N.to_nat k) = Some g /\ Forall (fun x => x <= g)%R norms /\ forall j x, j < k -> nth_error norms (N.to_nat j) = Some x -> (x < g)%R.
Proof.
  intros nbrs sel norms Hn Hl. unfold select_next. destruct nbrs; [congruence|]. destruct norms as [|x l]; [congruence|]. cbn [max_index]. cbv zeta. rewrite Nat2N.id.
  destruct (max_from l 0 x 1 ltac:(lia)) as [[E F]|(Hi & y & E & Ly & F & Fi)].
  - rewrite E. exists x. split; [reflexivity|]. split; [constructor; [lra|exact F]|]. intros j y Hj. lia.
  - set (i := max_element 0 x 1 l) in *. exists y. assert (Ei : i = Datatypes.S (i - 1)) by lia. rewrite Ei. split; [exact E|]. split; [constructor; [lra|exact F]|].
    intros j z Hj Hz. destruct (N.to_nat j) as [|j'] eqn:Ej; [injection Hz as <-; exact Ly|]. apply (Fi j' z); [lia|exact Hz].
Qed.

(** ** Concrete cases *)
Definition ze (p q : N) : Meas Z := mkMeas 0 0 p q (mident 2) (mlit 2 1 [[1]; [2]]%Z) 3%Z 4%Z true 1%Z.
Definition zds : list (Meas Z) := [ze 0 1; ze 1 2; ze 2 3; ze 3 4; ze 4 5; ze 5 6; ze 6 4; ze 0 5].
Definition brief4 (m : Meas Z) := (mr1 m, mp1 m, mr2 m, mp2 m).
Lemma ex_partition : sizes_ok 7 3 /\ Forall (edge_in 7) zds /\ NoDup (map pair_of zds) /\ Forall (shape_ok 2) zds /\
  match split_dataset 7 3 zds with
  | Ok (Some st) => map (map brief4) (sp_odom st) = [[(0, 0, 0, 1)]; [(1, 0, 1, 1)]; [(2, 0, 2, 1); (2, 1, 2, 2)]] /\
      map (map brief4) (sp_priv st) = [[]; []; [(2, 2, 2, 0)]] /\
      map (map brief4) (sp_shared st) = [[(0, 1, 1, 0); (0, 0, 2, 1)]; [(0, 1, 1, 0); (1, 1, 2, 0)]; [(1, 1, 2, 0); (0, 0, 2, 1)]]
  | _ => False end.
Proof.
  split; [unfold sizes_ok; lia|]. split; [repeat constructor|]. split; [|split; [repeat constructor|vm_compute; auto]].
  vm_compute. repeat (apply NoDup_cons; [cbn; intuition congruence|]). apply NoDup_nil.
Qed.
(** One pose per robot: no odometry, so nothing is stored. *)
Lemma lost_edges : exists st, sizes_ok 2 2 /\ split_dataset 2 2 [ze 0 1] = Ok (Some st) /\
  map (map brief4) (sp_shared st) = [[(0, 0, 1, 0)]; [(0, 0, 1, 0)]] /\
  forall (a : Agent Z) k, a_thread a = false -> a_state a = WAIT_FOR_DATA -> (k < 2)%nat ->
    ag_setMeasurements a (nth k (sp_odom st) []) (nth k (sp_priv st) []) (nth k (sp_shared st) []) = Ok a.
Proof.
  assert (E : match split_dataset 2 2 [ze 0 1] with Ok (Some st) => map (map brief4) (sp_shared st) = [[(0, 0, 1, 0)]; [(0, 0, 1, 0)]] /\ sp_odom st = [[]; []] | _ => False end)
    by (vm_compute; auto).
  destruct (split_dataset 2 2 [ze 0 1]) as [[st|]| |]; try contradiction. destruct E as [E1 E2]. exists st. split; [unfold sizes_ok; lia|]. split; [reflexivity|]. split; [exact E1|].
  intros a k Ht Ea Hk. rewrite E2. unfold ag_setMeasurements. rewrite Ht, Ea. destruct k as [|[|k]]; [reflexivity|reflexivity|lia].
Qed.
