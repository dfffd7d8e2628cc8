(** The multi-robot example: start, loop and end put together. *)
From Coq Require Import List NArith ZArith Bool Arith Lia Lra Reals Permutation.
From Verif Require Import Base SMap Num RSum Det MatR ModelTypes ModelPoseGraph ModelProblem ModelRobust ModelPoses ModelSolver ModelOptimizer ModelAgent ModelExample ModelExampleRun
  SpecPoseGraph SpecPGHist SpecCost SpecSolver SpecAgent SpecFrames SpecExample SpecInit SpecOptimizer SpecRun ProofsPoseGraph ProofsPGHist ProofsPGMain ProofsPGData ProofsCost ProofsCost2 ProofsCost4 ProofsPoses ProofsOdom
  ProofsExample ProofsExample2 ProofsExample3 ProofsAgent ProofsAgent2 ProofsAgent3 ProofsFrames ProofsFrames2 ProofsRun ProofsRun2 ProofsRun3 ProofsRun4 ProofsRun5 ProofsRun6.
Import ListNotations.
Local Open Scope res_scope.
Implicit Types (g : PoseGraph R) (a : Agent R).

Lemma put_nth (ags : list (Agent R)) k j a : nth_error (put ags k a) (N.to_nat j) =
  if (k =? j)%N then option_map (fun _ => a) (nth_error ags (N.to_nat j)) else nth_error ags (N.to_nat j).
Proof.
  unfold put. rewrite list_update_nth. destruct (N.eqb_spec k j) as [->|Hn]; [rewrite Nat.eqb_refl; reflexivity|].
  destruct (Nat.eqb_spec (N.to_nat k) (N.to_nat j)) as [E|_]; [lia|reflexivity].
Qed.
Lemma norms_len d r n m (D : Mx R) : length (map (fun k => mnorm (robot_block d r n m k D)) (range 0 m)) = N.to_nat m.
Proof. rewrite map_length, range_length. f_equal. lia. Qed.

Section N.
Context (d r : nat) (m : N) (P : AgentParams R) (G : N -> PoseGraph R) (ds' : list (Meas R)) {St : Type} (L : Lib R St) (n : N) (ds : list (Meas R)) (opt : N -> Optimizer R) (gc : PoseGraph R).
Hypothesis (HPd : p_d P = d) (HPr : p_r P = r) (HPs : p_restart P <> 0%N) (Hs : sizes_ok n m) (HR : Forall2 (relabelled n m) ds ds')
  (HW : Forall (fun e => mweight e = 1%R) ds) (HGc : pg_r gc = r /\ pg_d gc = d /\ pg_n gc = n).
Notation run := (run d r m P G ds' L n ds opt gc).
Notation next_of := (next_of d r m G n).

Lemma run_nth it sel ags fuel lines lp : run it sel ags fuel lines lp -> forall X0, (sel < m)%N -> joined d r m n ags X0 ->
  exists Xs Ds, length Xs = length lines /\ length Ds = length lines /\ (length lines <= fuel)%nat /\
    (forall j ln X D, nth_error lines j = Some ln -> nth_error Xs j = Some X -> nth_error Ds j = Some D ->
      ln_iter ln = (it + N.of_nat j)%N /\ (ln_robot ln < m)%N /\ whole d r n X /\ ln_cost ln = (2 * dataset_cost r d ds X)%R /\ grad_of gc X D /\ ln_gradnorm ln = mnorm (l_proj L X D)) /\
    (forall ln, nth_error lines 0 = Some ln -> ln_robot ln = sel) /\
    (forall j ln ln' X D, nth_error lines j = Some ln -> nth_error lines (S j) = Some ln' -> nth_error Xs j = Some X -> nth_error Ds j = Some D ->
      (1 / 10 <= ln_gradnorm ln)%R /\ ln_robot ln' = next_of (ln_robot ln) (l_proj L X D)) /\
    ((length lines < fuel)%nat -> exists ln, nth_error lines (length lines - 1) = Some ln /\ (ln_gradnorm ln < 1 / 10)%R) /\
    joined d r m n (lp_agents lp) (last Xs X0) /\
    (p_accel P = false -> (forall i, descending (opt i)) -> forall j X X', nth_error (X0 :: Xs) j = Some X -> nth_error Xs j = Some X' -> (dataset_cost r d ds X' <= dataset_cost r d ds X)%R).
Proof.
  assert (C0 : forall ags X, joined d r m n ags X -> cost0 d r m ds' ags = dataset_cost r d ds X).
  { intros. apply (joined_cost d r m P HPd HPr HPs ds' n ds gc Hs HR HW HGc). assumption. }
  induction 1 as [it sel ags lp E|it sel ags fuel ln lp D LA J Sm De|it sel ags fuel ln lp1 D lns lp LA J Sm De Rn IH]; intros X0 Hsel J0.
  - exists [], []. cbn. split; [reflexivity|]. split; [reflexivity|]. split; [lia|]. split; [intros [|j]; discriminate|]. split; [discriminate|]. split; [intros [|j]; discriminate|].
    split; [lia|]. split; [rewrite E; exact J0|]. intros _ _ [|j]; discriminate.
  - exists [lp_X lp], [D]. destruct LA as (W & L1 & L2 & L3 & L4 & L5). split; [reflexivity|]. split; [reflexivity|]. split; [cbn; lia|]. split.
    { intros [|j] ln' X D'; [|destruct j; discriminate]. intros [= <-] [= <-] [= <-]. rewrite L1, L2. split; [lia|]. auto 10. }
    split; [intros ln' [= <-]; exact L2|]. split; [intros [|j]; discriminate|]. split; [intros _; exists ln; auto|]. split; [exact J|].
    intros Ha Hd [|j] X X'; [|destruct j; discriminate]. intros [= <-] [= <-]. rewrite <- (C0 _ _ J0). auto.
  - destruct LA as (W & L1 & L2 & L3 & L4 & L5).
    assert (Hn : (next_of sel (l_proj L (lp_X lp1) D) < m)%N).
    { apply (next_lt d r m P HPd HPr HPs n gc HGc); auto. apply norms_len. }
    destruct (IH (lp_X lp1) Hn J) as (Xs & Ds & K1 & K2 & K3 & K4 & K5 & K6 & K7 & K8 & K9).
    exists (lp_X lp1 :: Xs), (D :: Ds). split; [cbn; congruence|]. split; [cbn; congruence|]. split; [cbn; lia|]. split.
    { intros [|j] ln' X D'; cbn [nth_error].
      - intros [= <-] [= <-] [= <-]. rewrite L1, L2. split; [lia|]. auto 10.
      - intros E1 E2 E3. destruct (K4 j ln' X D' E1 E2 E3) as (Q1 & Q). split; [lia|exact Q]. }
    split; [intros ln' [= <-]; exact L2|]. split.
    { intros [|j] l1 l2 X D'; cbn [nth_error].
      - intros [= <-] E2 [= <-] [= <-]. split; [exact Sm|]. rewrite L2. apply K5. exact E2.
      - intros E1 E2 E3 E4. apply (K6 j l1 l2 X D' E1 E2 E3 E4). }
    split.
    { cbn [length]. intros Hl. destruct K7 as (l1 & E1 & Q1); [lia|]. exists l1. split; [|exact Q1]. destruct lns as [|l0 lns]; [discriminate|]. cbn [length] in *.
      replace (S (S (length lns)) - 1)%nat with (S (S (length lns) - 1)) by lia. exact E1. }
    split.
    { destruct Xs as [|X1 Xs]; [exact K8|]. replace (last (lp_X lp1 :: X1 :: Xs) X0) with (last (X1 :: Xs) X0) by reflexivity.
      replace (last (X1 :: Xs) X0) with (last (X1 :: Xs) (lp_X lp1)); [exact K8|]. clear. revert X1. induction Xs as [|X2 Xs IH]; intros X1; [reflexivity|]. cbn [last] in *. apply IH. }
    intros Ha Hd [|j] X X'; cbn [nth_error].
    + intros [= <-] [= <-]. rewrite <- (C0 _ _ J0). auto.
    + intros E1 E2. apply (K9 Ha Hd j X X' E1 E2).
Qed.
End N.

Section E.
Context (x : Ext R) (ls : LocalSolvers R) (d r : nat) (n m : N) (ds : list (Meas R)) (acc : bool).
Context (HDs : dataset_ok d r n m ds).
Notation P := (ex_params (S := R) d r m acc).
Notation stored := (stored d r n m ds).
Notation Ready := (Ready d r n m ds acc).
Notation readies := (readies d r n m ds acc).
Notation rl := (relabel n m).

Lemma ds_sizes : sizes_ok n m. Proof. apply HDs. Qed.
Lemma block_dims k X : (k < m)%N -> mrows (robot_block d r n m k (X : Mx R)) = r /\ mcols (robot_block d r n m k X) = (N.to_nat (size_of n m k) * S d)%nat.
Proof. intros Hk. unfold robot_block. rewrite (cols_eq n m d k ds_sizes Hk). split; reflexivity. Qed.

Lemma ds_single : single_problem 0 d (N.to_nat n) ds.
Proof.
  pose proof HDs as (Hs & H2 & Hd & Hr & ND & Q & O). destruct Hs as (M1 & M2 & M3 & M4). split; [exact Hd|]. rewrite N2Nat.id.
  split; [split|]. 
  - intros e He. destruct (Q e He) as (_ & _ & A & B & _). auto.
  - assert (N2 : (2 <= n)%N). { pose proof (quot_ok n m ds_sizes) as [_ Z]. nia. }
    assert (I : In (N.of_nat (N.to_nat n - 2)) (map mp1 (filter next_pose ds))) by (rewrite O; apply in_map, in_seq; lia).
    apply in_map_iff in I. destruct I as (e & Ee & Ie). apply filter_In in Ie. destruct Ie as [Ie Nx]. exists e. split; [exact Ie|]. right. unfold next_pose in Nx. apply N.eqb_eq in Nx. lia.
  - split; [exact M3|]. split; [reflexivity|]. intros e He. destruct (Q e He) as (A & B & _ & _ & Nn & _ & (S1 & S2 & S3 & S4)). repeat split; auto.
Qed.

(** ** [setX] *)
Lemma setX_total k a X G : (k < m)%N -> Ready k a -> G k = a_pg a -> mrows X = r -> mcols X = (N.to_nat (size_of n m k) * S d)%nat ->
  exists a', ag_setX a X = Ok a' /\ Mem P G 0 k a' /\ pa_X (a_X a') = X.
Proof.
  intros Hk B HG X1 X2. pose proof B as B0. destruct B0. pose proof rd_pg as SS.
  assert (NP : num_poses a = N.to_nat (size_of n m k)) by (unfold num_poses; rewrite (st_n _ _ _ _ _ _ _ rd_pg); reflexivity).
  destruct (iv_X _ rd_inv rd_st) as [_ AX]. rewrite rd_P in AX. cbn [p_r p_d ex_params] in AX.
  assert (XC : mcols X = ((d + 1) * num_poses a)%nat) by (rewrite X2, NP; lia).
  destruct (setData_total (a_X a) X AX X1 XC) as (X' & EX & _ & VX).
  assert (E : exists a', ag_setX a X = Ok a' /\ pa_X (a_X a') = X).
  { unfold ag_setX. destruct (state_eqb (a_state a) WAIT_FOR_DATA) eqn:Es; [apply state_eqb_eq in Es; contradiction|]. cbn [negb check].
    unfold relaxation_rank, dimension. rewrite (st_r _ _ _ _ _ _ _ SS), (st_d _ _ _ _ _ _ _ SS), X1, XC, !Nat.eqb_refl. cbn [check]. cbv zeta.
    change (a_X (sa_state a INITIALIZED)) with (a_X a). rewrite EX. cbn [bind].
    change (p_accel (a_params (sa_X (sa_state a INITIALIZED) X'))) with (p_accel (a_params a)).
    destruct (p_accel (a_params a)) eqn:Ha.
    - set (a1 := sa_X (sa_state a INITIALIZED) X'). unfold ag_initializeAcceleration. change (p_accel (a_params a1)) with (p_accel (a_params a)). rewrite Ha. cbn [check].
      change (is_init a1) with true. cbv iota. eexists. split; [reflexivity|]. exact VX.
    - eexists. split; [reflexivity|]. exact VX. }
  destruct E as (a' & E & VX'). exists a'. split; [exact E|]. split; [|exact VX'].
  destruct (setX_form _ _ _ E) as (Q & Fp & Fs & _ & _ & _ & _ & FY & _ & _ & Ft & _). destruct Q.
  constructor; try congruence.
  - exact (setX_inv _ _ _ rd_inv E).
  - rewrite HG, Fp. apply like_refl; [apply (st_wf _ _ _ _ _ _ _ SS)|apply (st_coh _ _ _ _ _ _ _ SS)].
Qed.

(** ** All robots at the start *)
Context (ags0 : list (Agent R)) (HL0 : length ags0 = N.to_nat m) (HR0 : readies ags0) (gd : PoseGraph R).
Definition graph_of (k : N) : PoseGraph R := match nth_error ags0 (N.to_nat k) with Some a => a_pg a | None => gd end.
Lemma ready_at k : (k < m)%N -> exists a, nth_error ags0 (N.to_nat k) = Some a /\ Ready k a /\ graph_of k = a_pg a.
Proof.
  intros Hk. unfold graph_of. destruct (nth_error ags0 (N.to_nat k)) as [a|] eqn:E.
  - exists a. split; [reflexivity|]. split; [|reflexivity]. pose proof (HR0 _ _ E) as B. rewrite N2Nat.id in B. exact B.
  - apply nth_error_None in E. lia.
Qed.
Lemma graph_stored k : (k < m)%N -> stored k (graph_of k).
Proof. intros Hk. destruct (ready_at k Hk) as (a & _ & B & ->). apply B. Qed.

Lemma start_total X : whole d r n X -> exists ags, ex_start d r n m X ags0 = Ok ags /\ team m P graph_of (fun _ => 0%N) ags /\ joined d r m n ags X.
Proof.
  intros WX. unfold ex_start.
  set (step := fun ags robot => do a <- at_ ags robot; do a <- ag_setX a (robot_block d r n m robot X); Ok (put ags robot a)).
  assert (Q : forall j, (j <= m)%N -> exists ags, foldM step ags0 (range 0 j) = Ok ags /\ length ags = N.to_nat m /\
    forall k a, nth_error ags (N.to_nat k) = Some a -> ((k < j)%N -> Mem P graph_of 0 k a /\ pa_X (a_X a) = robot_block d r n m k X) /\ ((j <= k)%N -> nth_error ags0 (N.to_nat k) = Some a)).
  { intros j. induction j as [|j IH] using N.peano_ind; intros Hj.
    - exists ags0. split; [reflexivity|]. split; [exact HL0|]. intros k a E. split; [lia|auto].
    - destruct (IH ltac:(lia)) as (ags & E & Ln & V). rewrite <- N.add_1_r, range_S, foldM_app, E. cbn [bind foldM]. assert (Hk : (j < m)%N) by lia.
      destruct (ready_at j Hk) as (a & Na & B & HG). destruct (block_dims j X Hk) as [B1 B2]. destruct (setX_total j a _ graph_of Hk B HG B1 B2) as (a' & Ea & M' & X').
      assert (Nj : nth_error ags (N.to_nat j) = Some a).
      { destruct (nth_error ags (N.to_nat j)) as [b|] eqn:Eb; [|apply nth_error_None in Eb; lia]. apply V in Eb. destruct Eb as [_ Eb]. rewrite Eb in Na by lia. exact Na. }
      unfold step at 1, at_ at 1. rewrite Nj. cbn [bind]. rewrite Ea. cbn [bind]. exists (put ags j a'). split; [reflexivity|]. split; [unfold put; rewrite list_update_length; exact Ln|].
      intros k b. rewrite put_nth. destruct (N.eqb_spec j k) as [<-|Hn].
      + rewrite Nj. cbn [option_map]. intros [= <-]. split; [auto|lia].
      + intros Eb. destruct (V k b Eb) as [V1 V2]. split; [intros; apply V1; lia|intros; apply V2; lia]. }
  destruct (Q m (N.le_refl m)) as (ags & E & Ln & V). exists ags. split; [exact E|].
  assert (LT : forall k a, nth_error ags (N.to_nat k) = Some a -> (k < m)%N) by (intros k a Ek; assert (N.to_nat k < length ags)%nat by (apply nth_error_Some; congruence); lia).
  split; [split; [exact Ln|intros k a Ek; apply (V k a Ek); eauto]|]. split; [exact WX|]. intros k l i c Hk Hl Hi Hc.
  unfold traj. destruct (nth_error ags (N.to_nat k)) as [a|] eqn:Ek; [|apply nth_error_None in Ek; lia]. destruct (V k a Ek) as [V1 _]. rewrite (proj2 (V1 Hk)).
  assert (O : owns n m k (k * (n / m) + l)%N) by (apply (owns_size n m _ _ ds_sizes); lia).
  pose proof (blk_eq n m d r k X _ l i c ds_sizes O eq_refl) as Q2. symmetry. exact Q2.
Qed.

(** ** The graphs fit together *)
Lemma shared_back k e : (k < m)%N -> In e (pg_shared (graph_of k)) -> let q := other_pose k e in
  (robot_id q < m)%N /\ robot_id q <> k /\ exists e', In e' (pg_shared (graph_of (robot_id q))) /\ own_pose (robot_id q) e' = q.
Proof.
  intros Hk He. rewrite (st_shared _ _ _ _ _ _ _ (graph_stored k Hk)) in He. apply in_map_iff in He. destruct He as (e0 & <- & I0). apply filter_In in I0. destruct I0 as [I0 O0].
  pose proof (ds_edges d r n m ds HDs) as DE. rewrite Forall_forall in DE. pose proof (DE e0 I0) as E0.
  destruct (rl_kinds n m ds_sizes k e0 E0) as (_ & _ & K3 & _). rewrite O0 in K3. unfold is_shared in K3.
  destruct (relabel_ok n m ds_sizes e0 E0) as (W1 & W2 & _). apply owns_iff in W1, W2. destruct W1 as [W1 _], W2 as [W2 _].
  assert (Go : forall j, (j < m)%N -> j <> k -> (mr1 (rl e0) = j /\ mr2 (rl e0) = k \/ mr1 (rl e0) = k /\ mr2 (rl e0) = j) -> In (rl e0) (pg_shared (graph_of j))).
  { intros j Hj Hn Hc. rewrite (st_shared _ _ _ _ _ _ _ (graph_stored j Hj)). apply in_map. apply filter_In. split; [exact I0|].
    destruct (rl_kinds n m ds_sizes j e0 E0) as (_ & _ & K3' & _). rewrite <- K3'. unfold is_shared. 
    destruct Hc as [[-> ->]|[-> ->]]; rewrite N.eqb_refl; destruct (N.eqb_spec k j); congruence || reflexivity. }
  unfold other_pose, own_pose. destruct (N.eqb_spec (mr1 (rl e0)) k) as [E1|E1].
  - assert (Hn : mr2 (rl e0) <> k). { intros E2. rewrite E2, N.eqb_refl in K3. discriminate. }
    cbn [robot_id]. split; [exact W2|]. split; [exact Hn|]. exists (rl e0). split; [apply Go; auto|]. destruct (N.eqb_spec (mr1 (rl e0)) (mr2 (rl e0))); [congruence|reflexivity].
  - assert (E2 : mr2 (rl e0) = k). { destruct (N.eqb_spec (mr2 (rl e0)) k); auto. discriminate. }
    cbn [robot_id]. split; [exact W1|]. split; [exact E1|]. exists (rl e0). split; [apply Go; auto|]. rewrite N.eqb_refl. reflexivity.
Qed.
Lemma nbrs_iff k : (k < m)%N -> pg_nbrs (graph_of k) <> [] <-> exists e, In e ds /\ one_end n m k e = true.
Proof.
  intros Hk. pose proof (graph_stored k Hk) as S. pose proof (wf_nbrs _ (st_wf _ _ _ _ _ _ _ S)) as W. rewrite (st_shared _ _ _ _ _ _ _ S) in W. split.
  - intros Hn. destruct (pg_nbrs (graph_of k)) as [|j l]; [congruence|]. destruct (proj1 (W j) (or_introl eq_refl)) as (e & He & _). apply in_map_iff in He. destruct He as (e0 & _ & I0). apply filter_In in I0. eauto.
  - intros (e & He & Oe) Hn. assert (Q : In (other_robot (pg_id (graph_of k)) (rl e)) (pg_nbrs (graph_of k))).
    { apply W. exists (rl e). split; [apply in_map, filter_In; auto|reflexivity]. }
    rewrite Hn in Q. destruct Q.
Qed.
Lemma part_norm_eq k D : (k < m)%N -> mnorm (robot_block d r n m k D) = part_norm d r n m k D.
Proof. intros Hk. unfold part_norm, robot_block. rewrite (cols_eq n m d k ds_sizes Hk). reflexivity. Qed.
Lemma next_chosen k D : (k < m)%N -> chosen d r n m ds k D (next_of d r m graph_of n k D).
Proof.
  intros Hk. unfold next_of. set (norms := map _ (range 0 m)). assert (NT : forall j, (j < m)%N -> nth_error norms (N.to_nat j) = Some (part_norm d r n m j D)).
  { intros j Hj. unfold norms. rewrite <- (part_norm_eq j D Hj). unfold range. rewrite map_map. rewrite (map_nth_error (fun q => mnorm (robot_block d r n m (0 + N.of_nat q) D)) (N.to_nat j) (seq 0 (N.to_nat (m - 0))) (d := N.to_nat j)).
    - f_equal. f_equal. f_equal. lia.
    - rewrite (nth_error_nth' _ 0%nat) by (rewrite seq_length; lia). rewrite seq_nth by lia. reflexivity. }
  assert (LN : length norms = N.to_nat m) by apply norms_len. assert (M1 : (1 <= m)%N) by apply ds_sizes.
  split.
  - intros He. apply (nbrs_iff k Hk) in He. assert (Nn : norms <> []) by (destruct norms; [cbn in LN; lia|discriminate]).
    pose proof (selection (pg_nbrs (graph_of k)) k norms He Nn) as S. cbv zeta in S. set (k' := select_next _ _ _) in *. destruct S as (g & Eg & Fa & Lt).
    assert (Hk' : (k' < m)%N). { assert (N.to_nat k' < length norms)%nat by (apply nth_error_Some; congruence). lia. }
    rewrite (NT k' Hk') in Eg. injection Eg as <-. split.
    + intros j Hj. rewrite Forall_forall in Fa. apply Fa. apply (nth_error_In norms (N.to_nat j)). apply NT; auto.
    + intros j Hj. apply (Lt j); auto. apply NT. lia.
  - intros Hn. unfold select_next. destruct (pg_nbrs (graph_of k)) eqn:En; [reflexivity|]. exfalso. apply Hn. apply (nbrs_iff k Hk). congruence.
Qed.

Lemma reset_total f G lags : team m P G f lags -> exists lags', mapM (ag_reset x) lags = Ok lags' /\ length lags' = N.to_nat m /\
  forall k a, nth_error lags' (N.to_nat k) = Some a -> a_id a = k /\ a_state a = WAIT_FOR_DATA /\ a_inst a = 1%N /\ a_iter a = 0%N /\ pa_X (a_X a) = traj lags k.
Proof.
  intros [Ln T]. assert (Each : forall k a, nth_error lags (N.to_nat k) = Some a -> exists a', ag_reset x a = Ok a').
  { intros k a Na. destruct (T k a Na). unfold ag_reset. rewrite endLoop_form. change (a_params (sa_thread a false)) with (a_params a). rewrite mm_P. cbn [p_log ex_params bind]. eauto. }
  destruct (mapM_total (ag_reset x) lags) as (lags' & E).
  { intros a Hin. apply In_nth_error in Hin. destruct Hin as (k & Ek). apply (Each (N.of_nat k) a). rewrite Nat2N.id. exact Ek. }
  exists lags'. split; [exact E|]. destruct (mapM_nth _ _ _ E) as [L' V]. split; [congruence|]. intros k a' E'.
  destruct (nth_back lags lags' _ _ L' E') as (a & Ea). destruct (V _ _ Ea) as (a2 & E2 & F2). replace a2 with a' in F2 by congruence. apply reset_form in F2. destruct (T k a Ea).
  unfold traj. rewrite Ea, F2. cbn. rewrite mm_inst, mm_id. auto 10.
Qed.
End E.
