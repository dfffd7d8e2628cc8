(** Examples and counterexamples used by PropPoseGraph. *)
From Coq Require Import List NArith ZArith Bool Lia Permutation Reals Lra.
From Verif Require Import Base SMap Num ModelTypes ModelPoseGraph SpecPoseGraph SpecPGHist
  ProofsPoseGraph ProofsPGHist ProofsPGData ProofsLaplacian ProofsPGMain.
Import ListNotations.
Local Open Scope res_scope.

Lemma setActive_reach S (HS : Num S) id r d (os : list (pgop S)) g k b : reach id r d os g ->
  exists g', setNeighborActive g k b = Ok g' /\
    (hasNeighbor g k = false -> g' = g) /\
    (hasNeighbor g k = true -> isNeighborActive g' k = Ok b) /\
    (forall k', k' <> k -> isNeighborActive g' k' = isNeighborActive g k') /\
    measurements g' = measurements g /\ pg_nbrs g' = pg_nbrs g /\ pg_n g' = pg_n g /\
    pg_nposes g' = pg_nposes g /\ pg_priors g' = pg_priors g.
Proof. intros R. destruct (reach_facts _ _ _ _ _ R) as (_ & W & _). apply setActive_effect; auto. Qed.

Lemma stats_R id r d (os : list (pgop R)) g : reach id r d os g ->
  exists A L st, activeLoopClosures g = Ok A /\ map (deref g) A = map Some L /\
    statistics g = Ok st /\ total_lc st = length L /\
    accept_lc st = count (fun m => if Req_EM_T (mweight m) 1 then true else false) L /\
    reject_lc st = count (fun m => if Req_EM_T (mweight m) 0 then true else false) L /\
    (accept_lc st + reject_lc st + undecided_lc st = total_lc st)%nat.
Proof.
  intros R0. destruct (stats_reach _ _ _ _ _ R0) as (A & L & st & H1 & H2 & H3 & H4 & H5 & H6 & H7 & H8).
  - simpl. intros x. destruct (Req_EM_T x 1), (Req_EM_T x 0); auto; lra.
  - exists A, L, st. repeat split; auto.
Qed.

Lemma stats_XR id r d (os : list (pgop XR)) g : reach id r d os g ->
  exists A L st, activeLoopClosures g = Ok A /\ map (deref g) A = map Some L /\
    statistics g = Ok st /\ total_lc st = length L /\
    accept_lc st = count (fun m => xeqb (mweight m) (Fin 1)) L /\
    reject_lc st = count (fun m => xeqb (mweight m) (Fin 0)) L /\
    undecided_lc st = count (fun m => negb (xeqb (mweight m) (Fin 1)) && negb (xeqb (mweight m) (Fin 0))) L /\
    (accept_lc st + reject_lc st + undecided_lc st = total_lc st)%nat.
Proof.
  intros R0. apply stats_reach with (1 := R0).
  simpl. intros x. destruct x; simpl; auto. destruct (Req_EM_T r0 1), (Req_EM_T r0 0); auto; lra.
Qed.

Lemma ex_C01 :
  Forall ids_ok ex_input /\ Forall (shape_ok 2) ex_input /\
  map mp2 (filter (is_odom 0) (kept 0 ex_input)) = [1; 2; 3]%N /\
  map (fun m => mt m 0%nat 0%nat) (filter (is_shared 0) (kept 0 ex_input)) = [5; 6]%Z /\
  length (kept 0 ex_input) = 6%nat.
Proof. repeat split; try reflexivity; [apply ex_input_ok|apply ex_input_shape]. Qed.

Ltac by_run os P :=
  let g := fresh "g" in let R := fresh "R" in let T := fresh "T" in
  destruct (run_test_reach os P) as (g & R & T);
  [vm_compute; reflexivity | | exists g].

Ltac ops := repeat (apply Forall_app; split); try apply ex_filled_ok; try apply ex_ops_ok; repeat constructor.

Lemma ex_reach : exists g, reach 0 3 2 ex_filled g /\ length (measurements g) = 6%nat /\ pg_n g = 4%N.
Proof.
  by_run ex_filled (fun g : PoseGraph Z => Nat.eqb (length (measurements g)) 6 && (pg_n g =? 4)%N); [ops|].
  split; auto. apply andb_true_iff in T. rewrite Nat.eqb_eq, N.eqb_eq in T. auto.
Qed.

Lemma ex_C02 :
  (exists g, reach 0 3 2 ex_filled g) /\
  (exists m0, find (joinsb (mkPoseID 0 1) (mkPoseID 0 2))
     (filter (relevantb 0) (h_in (h_run 0 ex_filled))) = Some m0 /\ mt m0 0%nat 0%nat = 1%Z) /\
  find (joinsb (mkPoseID 0 2) (mkPoseID 0 1)) (filter (relevantb 0) (h_in (h_run 0 ex_filled))) = None.
Proof.
  split; [|split].
  - destruct ex_reach as (g & R & _). eauto.
  - eexists. split; [reflexivity|]. reflexivity.
  - reflexivity.
Qed.

Lemma cex_lookup : exists (os : list (pgop Z)) g src dst,
  (do g0 <- newPoseGraph 0 3 2; pg_run g0 os) = Ok g /\
  (forall m, In m (measurements g) -> ~ joins m src dst) /\
  hasMeasurement g src dst = true /\ findMeasurement g src dst = Abort.
Proof.
  exists [PAdd (ex_meas 0 4294967301 0 7 1)].
  destruct (run_test_any [PAdd (ex_meas 0 4294967301 0 7 1)]
    (fun g : PoseGraph Z => forallb (fun m => (mp1 m =? 4294967301)%N) (measurements g) &&
       hasMeasurement g (mkPoseID 0 5) (mkPoseID 0 7) &&
       match findMeasurement g (mkPoseID 0 5) (mkPoseID 0 7) with Abort => true | _ => false end))
    as (g & R & T); [vm_compute; reflexivity|].
  exists g, (mkPoseID 0 5), (mkPoseID 0 7). split; auto.
  rewrite !andb_true_iff in T. destruct T as [[T1 T2] T3]. repeat split; auto.
  - intros m Hm (_ & J & _). rewrite forallb_forall in T1. specialize (T1 m Hm).
    apply N.eqb_eq in T1. simpl in J. lia.
  - destruct (findMeasurement _ _ _); auto; discriminate.
Qed.

Lemma cex_n : exists (m : Meas Z) g,
  (do g0 <- newPoseGraph 0 3 2; addMeasurement g0 m) = Ok g /\
  In m (measurements g) /\ mp2 m = 4294967295%N /\ ~ num_poses_spec 0 (measurements g) (pg_n g).
Proof.
  exists (ex_meas 0 4294967294 0 4294967295 1).
  eexists. split; [vm_compute; reflexivity|]. split; [left; reflexivity|].
  split; [reflexivity|]. intros (N1 & _).
  specialize (N1 _ 4294967295%N (or_introl eq_refl)). simpl in N1.
  assert (H : (4294967295 < 0)%N) by (apply N1; auto). lia.
Qed.

Lemma ex_C04 : exists g, reach 0 3 2 ex_filled g /\
  pg_nbrs g = [1; 2]%N /\ pg_lpub g = [mkPoseID 0 1; mkPoseID 0 3] /\
  pg_npub g = [mkPoseID 1 0; mkPoseID 2 4].
Proof.
  by_run ex_filled (fun g : PoseGraph Z =>
    match pg_nbrs g, pg_lpub g, pg_npub g with
    | [a; b], [p; q], [p'; q'] => (a =? 1)%N && (b =? 2)%N && poseid_eqb p (mkPoseID 0 1) && poseid_eqb q (mkPoseID 0 3)
       && poseid_eqb p' (mkPoseID 1 0) && poseid_eqb q' (mkPoseID 2 4)
    | _, _, _ => false end); [ops|].
  split; auto. destruct (pg_nbrs g) as [|? [|? [|? ?]]]; try discriminate.
  destruct (pg_lpub g) as [|[? ?] [|[? ?] [|? ?]]]; try discriminate.
  destruct (pg_npub g) as [|[? ?] [|[? ?] [|? ?]]]; try discriminate.
  unfold poseid_eqb in T. simpl in T. rewrite !andb_true_iff, !N.eqb_eq in T.
  intuition subst; reflexivity.
Qed.

Definition mref_eqb (a b : mref) : bool :=
  match a, b with
  | ROdom i, ROdom j | RPriv i, RPriv j | RShared i, RShared j => Nat.eqb i j
  | _, _ => false end.
Lemma mref_eqb_eq a b : mref_eqb a b = true -> a = b.
Proof. destruct a, b; simpl; try discriminate; intros E; apply Nat.eqb_eq in E; congruence. Qed.

Lemma ex_C05 : exists g, reach 0 3 2 (ex_filled ++ [PActive 2 false]) g /\
  activeLoopClosures g = Ok [RPriv 0; RShared 0] /\ inactiveLoopClosures g = Ok [RShared 1].
Proof.
  by_run (ex_filled ++ [PActive 2 false]) (fun g : PoseGraph Z =>
    match activeLoopClosures g, inactiveLoopClosures g with
    | Ok [a; b], Ok [c] => mref_eqb a (RPriv 0) && mref_eqb b (RShared 0) && mref_eqb c (RShared 1)
    | _, _ => false end); [ops|].
  split; auto. destruct (activeLoopClosures g) as [[|? [|? [|? ?]]]| |]; try discriminate.
  destruct (inactiveLoopClosures g) as [[|? [|? ?]]| |]; try discriminate.
  rewrite !andb_true_iff in T. destruct T as [[T1 T2] T3].
  apply mref_eqb_eq in T1, T2, T3. subst. auto.
Qed.

Lemma ex_C06 : exists g,
  reach 0 3 2 (ex_filled ++ [PWeight (RShared 0) 0 false; PWeight (RPriv 0) 3 false; PActive 2 false])%Z g /\
  statistics g = Ok (mkStats 2 0 1 1).
Proof.
  by_run (ex_filled ++ [PWeight (RShared 0) 0 false; PWeight (RPriv 0) 3 false; PActive 2 false])%Z
    (fun g : PoseGraph Z => match statistics g with
      | Ok (mkStats a b c e) => Nat.eqb a 2 && Nat.eqb b 0 && Nat.eqb c 1 && Nat.eqb e 1 | _ => false end); [ops|].
  split; auto. destruct (statistics g) as [[a b c e]| |]; try discriminate.
  rewrite !andb_true_iff, !Nat.eqb_eq in T. destruct T as [[[-> ->] ->] ->]. reflexivity.
Qed.

(** Fill, change a weight, clear, use again. *)
Definition ex_disc : list (pgop Z) :=
  ex_filled ++ [PWeight (RPriv 0) 3%Z false; PClearData; PSetPrior 0 (ex_pose 1); PConstruct].

Lemma ex_disc_ok : Forall op_ok ex_disc.
Proof. unfold ex_disc. ops. Qed.

(** [disciplined] by computation along the run. *)
Fixpoint discb (stale : bool) (g : PoseGraph Z) (os : list (pgop Z)) : bool :=
  match os with
  | [] => negb stale
  | o :: os' => (negb (reads o) || negb stale) &&
      match pg_step g o with
      | Ok g' => discb (if cleans o then false else stale || dirties g o) g' os'
      | _ => true end
  end.
Lemma discb_spec os : forall stale g, discb stale g os = true -> disciplined stale g os.
Proof.
  induction os as [|o os IH]; intros stale g T; simpl in T |- *.
  - apply negb_true_iff; auto.
  - apply andb_true_iff in T. destruct T as [T1 T2]. split.
    + intros Rd. rewrite Rd in T1. simpl in T1. apply negb_true_iff in T1. auto.
    + intros g' E. rewrite E in T2. auto.
Qed.

Definition ex_g0 : PoseGraph Z :=
  pg_empty (mkPG 0 3 2 0 [] [] [] [] [] [] [] [] None None None [] false []).

Lemma ex_C07 : exists g0 g,
  newPoseGraph 0 3 2 = Ok g0 /\ Forall op_ok ex_disc /\ disciplined false g0 ex_disc /\
  pg_run g0 ex_disc = Ok g /\ exists Q, pg_Q g = Some Q.
Proof.
  exists ex_g0.
  assert (T : match pg_run ex_g0 ex_disc with
              | Ok g => match pg_Q g with Some _ => true | None => false end | _ => false end = true)
    by (vm_compute; reflexivity).
  assert (D : disciplined false ex_g0 ex_disc) by (apply discb_spec; vm_compute; reflexivity).
  assert (N0 : newPoseGraph 0 3 2 = Ok ex_g0) by reflexivity.
  generalize dependent ex_g0. intros g0 T D N0.
  destruct (pg_run g0 ex_disc) as [g| |] eqn:E; try discriminate.
  exists g. split; [exact N0|]. split; [apply ex_disc_ok|]. split; [exact D|].
  split; [reflexivity|]. destruct (pg_Q g) as [Q|]; [|discriminate]. exists Q. reflexivity.
Qed.

Lemma cex_prior : exists (os : list (pgop Z)) g,
  os = ex_filled ++ [PSetPrior 0 (ex_pose 1)] /\ reach 0 3 2 os g /\
  exists g1 Q g2 Q', quadraticMatrix g = Ok (g1, Q) /\
    quadraticMatrix (clearDataMatrices g) = Ok (g2, Q') /\ Q <> Q'.
Proof.
  destruct (stale_witness (ex_filled ++ [PSetPrior 0 (ex_pose 1)]) quadraticMatrix) as (g & R & T);
    [vm_compute; reflexivity|ops|]. eauto.
Qed.
Lemma cex_add : exists (os : list (pgop Z)) g,
  os = ex_filled ++ [PAdd (ex_meas 0 0 0 2 2)] /\ reach 0 3 2 os g /\
  exists g1 Q g2 Q', quadraticMatrix g = Ok (g1, Q) /\
    quadraticMatrix (clearDataMatrices g) = Ok (g2, Q') /\ Q <> Q'.
Proof.
  destruct (stale_witness (ex_filled ++ [PAdd (ex_meas 0 0 0 2 2)]) quadraticMatrix) as (g & R & T);
    [vm_compute; reflexivity|ops|]. eauto.
Qed.
Lemma cex_weight : exists (os : list (pgop Z)) g,
  os = ex_filled ++ [PWeight (RPriv 0) 0%Z false] /\ reach 0 3 2 os g /\
  exists g1 Q g2 Q', quadraticMatrix g = Ok (g1, Q) /\
    quadraticMatrix (clearDataMatrices g) = Ok (g2, Q') /\ Q <> Q'.
Proof.
  destruct (stale_witness (ex_filled ++ [PWeight (RPriv 0) 0%Z false]) quadraticMatrix) as (g & R & T);
    [vm_compute; reflexivity|ops|]. eauto.
Qed.
Lemma cex_inactive : exists (os : list (pgop Z)) g,
  os = ex_ops ++ [PUseInactive true; PActive 1 false; PActive 2 false; PConstruct; PSetNbr ex_nbr] /\
  reach 0 3 2 os g /\
  exists g1 Q g2 Q', quadraticMatrix g = Ok (g1, Q) /\
    quadraticMatrix (clearDataMatrices g) = Ok (g2, Q') /\ Q <> Q'.
Proof.
  destruct (stale_witness (ex_ops ++ [PUseInactive true; PActive 1 false; PActive 2 false; PConstruct; PSetNbr ex_nbr])
    quadraticMatrix) as (g & R & T); [vm_compute; reflexivity|ops|]. eauto.
Qed.

Lemma ex_C08 :
  (exists g g', reach 0 3 2 (ex_ops ++ [PSetNbr ex_nbr]) g /\ constructDataMatrices g = Ok (g', true)) /\
  (exists g g', reach 0 3 2 (ex_ops ++ [PSetNbr (firstn 1 ex_nbr)]) g /\ constructDataMatrices g = Ok (g', false)).
Proof.
  split.
  - by_run (ex_ops ++ [PSetNbr ex_nbr]) (fun g : PoseGraph Z => match constructDataMatrices g with Ok (_, b) => b | _ => false end); [ops|].
    destruct (constructDataMatrices g) as [[g' []]| |] eqn:E; try discriminate. eauto.
  - by_run (ex_ops ++ [PSetNbr (firstn 1 ex_nbr)]) (fun g : PoseGraph Z => match constructDataMatrices g with Ok (_, b) => negb b | _ => false end); [ops|].
    destruct (constructDataMatrices g) as [[g' []]| |] eqn:E; try discriminate. eauto.
Qed.

Lemma ex_C09 : exists g, reach 0 3 2 (ex_ops ++ [PSetNbr ex_nbr]) g /\ no_self g /\ last_private g.
Proof.
  by_run (ex_ops ++ [PSetNbr ex_nbr]) (fun g : PoseGraph Z =>
    forallb (fun m => negb (mp1 m =? mp2 m)%N) (pg_odom g ++ pg_priv g) &&
    existsb (fun m => (mp2 m + 1 =? pg_n g)%N) (pg_odom g ++ pg_priv g)); [ops|].
  split; auto. apply andb_true_iff in T. destruct T as [T1 T2]. split.
  - intros m Hm. rewrite forallb_forall in T1. specialize (T1 m Hm). apply negb_true_iff, N.eqb_neq in T1. auto.
  - apply existsb_exists in T2. destruct T2 as (m & Hm & E). apply N.eqb_eq in E. exists m. auto.
Qed.

Lemma ub_witness os : run_test os (fun g => match constructQ g with UB => true | _ => false end) = true ->
  Forall op_ok os -> exists g, reach 0 3 2 os g /\ constructQ g = UB.
Proof.
  intros T F. destruct (run_test_reach _ _ T F) as (g & R & D). exists g. split; auto.
  destruct (constructQ g); auto; discriminate.
Qed.
Lemma cex_noprivate : exists g,
  reach 0 3 2 [PAdd (ex_meas 0 0 1 0 1); PSetNbr ex_nbr] g /\ constructQ g = UB.
Proof. apply ub_witness; [vm_compute; reflexivity|ops]. Qed.
Lemma cex_lastshared : exists g,
  reach 0 3 2 [PAdd (ex_meas 0 0 0 1 1); PAdd (ex_meas 0 2 1 0 1); PSetNbr ex_nbr] g /\ constructQ g = UB.
Proof. apply ub_witness; [vm_compute; reflexivity|ops]. Qed.
Lemma cex_self : exists g,
  reach 0 3 2 [PAdd (ex_meas 0 0 0 1 1); PAdd (ex_meas 0 1 0 1 1)] g /\ constructQ g = UB.
Proof. apply ub_witness; [vm_compute; reflexivity|ops]. Qed.

Lemma order_facts {K} (lt : K -> K -> bool) : strict_total lt ->
  (forall a, lt a a = false) /\ (forall a b c, lt a b = true -> lt b c = true -> lt a c = true) /\
  (forall a b, lt a b = true \/ a = b \/ lt b a = true) /\
  (forall a b, lt a b = false /\ lt b a = false <-> a = b).
Proof.
  intros T. destruct T as [I Tr To]. split; [|split; [|split]]; auto.
  - intros a b. destruct (lt a b) eqn:A, (lt b a) eqn:B; auto.
  - intros a b. split; [|intros ->; auto]. intros [A B]. auto.
Qed.
Lemma poseid_eqb_eq a b : poseid_eqb a b = true <-> a = b.
Proof.
  unfold poseid_eqb. rewrite andb_true_iff, !N.eqb_eq. destruct a, b; simpl. split; [intros []; congruence|].
  intros E; inversion E; auto.
Qed.
Lemma edgeid_eqb_eq a b : edgeid_eqb a b = true <-> a = b.
Proof.
  unfold edgeid_eqb. rewrite andb_true_iff, !poseid_eqb_eq. destruct a, b; simpl. split; [intros []; congruence|].
  intros E; inversion E; auto.
Qed.
Lemma pose_order :
  (forall a, pose_ltb a a = false) /\
  (forall a b c, pose_ltb a b = true -> pose_ltb b c = true -> pose_ltb a c = true) /\
  (forall a b, pose_ltb a b = true \/ a = b \/ pose_ltb b a = true) /\
  (forall a b, pose_ltb a b = false /\ pose_ltb b a = false <-> a = b) /\
  (forall a b, poseid_eqb a b = true <-> a = b).
Proof.
  destruct (order_facts _ pose_total) as (A & B & C & D).
  split; [exact A|]. split; [exact B|]. split; [exact C|]. split; [exact D|]. exact poseid_eqb_eq.
Qed.
Lemma edge_order :
  (forall a, edge_ltb a a = false) /\
  (forall a b c, edge_ltb a b = true -> edge_ltb b c = true -> edge_ltb a c = true) /\
  (forall a b, edge_ltb a b = true \/ a = b \/ edge_ltb b a = true) /\
  (forall a b, edge_ltb a b = false /\ edge_ltb b a = false <-> a = b) /\
  (forall a b, edgeid_eqb a b = true <-> a = b).
Proof.
  destruct (order_facts _ edge_total) as (A & B & C & D).
  split; [exact A|]. split; [exact B|]. split; [exact C|]. split; [exact D|]. exact edgeid_eqb_eq.
Qed.
Lemma edge_hash_eq combine hv a b : edgeid_eqb a b = true -> edge_hash combine hv a = edge_hash combine hv b.
Proof. intros E. apply edgeid_eqb_eq in E. congruence. Qed.
Lemma edge_kinds e :
  (edge_isOdometry e = true /\ edge_isPrivate e = false /\ edge_isShared e = false) \/
  (edge_isOdometry e = false /\ edge_isPrivate e = true /\ edge_isShared e = false) \/
  (edge_isOdometry e = false /\ edge_isPrivate e = false /\ edge_isShared e = true).
Proof.
  unfold edge_isOdometry, edge_isPrivate, edge_isShared.
  destruct (robot_id _ =? robot_id _)%N, (u32 _ =? _)%N; simpl; auto.
Qed.
