(** Data matrices of the pose graph: when they are built, their sizes, and
    coherence of the caches. *)
From Coq Require Import List NArith Bool Lia Permutation.
From Verif Require Import Base SMap Num ModelTypes ModelPoseGraph SpecPoseGraph SpecPGHist
  ProofsPoseGraph ProofsPGHist.
Import ListNotations.
Local Open Scope N_scope.
Local Open Scope res_scope.

Section PG.
Context {S : Type} `{Num S}.
Implicit Types (g : PoseGraph S) (m : Meas S).

Definition remote g m : option (Mx S) := mfind pose_ltb (other_pose (pg_id g) m) (pg_nposes g).
Definition active g m : bool := act g (other_robot (pg_id g) m).
Definition missing g m : bool := active g m && negb (some (remote g m)).
Definition used g m : option (Mx S) :=
  if active g m || pg_useinact g then remote g m else None.
Definition own_idx g m : N := frame_id (own_pose (pg_id g) m).

Lemma shared_ids g m : pg_wf g -> In m (pg_shared g) -> ids_ok m.
Proof. intros W Hm. apply (wf_ids _ W). unfold measurements. rewrite !in_app_iff. auto. Qed.

Lemma shared_status_spec g m : pg_wf g -> In m (pg_shared g) ->
  shared_status g m = Ok (if missing g m then Missing else
     match used g m with
     | None => Skip
     | Some X => if mr1 m =? pg_id g then UseOut (own_idx g m) X else UseIn (own_idx g m) X
     end).
Proof.
  intros W Hm. pose proof (shared_ids _ _ W Hm) as (A & B & C & D).
  pose proof (wf_shared _ W _ Hm) as Hs.
  unfold shared_status, missing, used, active, act, remote, own_idx, own_pose, other_pose, other_robot.
  unfold is_shared in Hs. unfold pose_of. rewrite !u32_small by lia.
  destruct (mr1 m =? pg_id g) eqn:R1, (mr2 m =? pg_id g) eqn:R2; simpl in Hs; try discriminate; simpl.
  - destruct (isActive_total g (mr2 m) W) as (b & E & _). rewrite E. simpl.
    destruct b, (mfind pose_ltb _ _), (pg_useinact g); reflexivity.
  - destruct (isActive_total g (mr1 m) W) as (b & E & _). rewrite E. simpl.
    destruct b, (mfind pose_ltb _ _), (pg_useinact g); reflexivity.
Qed.

(** Unguarded block addition. *)
Definition add_blk (dh : nat) (M : Mx S) (idx : N) (B : Mx S) : Mx S :=
  let j0 := (N.to_nat idx * dh)%nat in
  mkMx (mrows M) (mcols M) (fun i j =>
    if Nat.leb j0 j && Nat.ltb j (j0 + dh) then nadd (M i j) (B i (j - j0)%nat) else M i j).

Lemma add_block_in dh M idx B n : (N.to_nat idx < n)%nat -> mcols M = (dh * n)%nat ->
  add_block dh M idx B = Ok (add_blk dh M idx B).
Proof.
  intros Hi Hc. unfold add_block, require.
  replace (Nat.leb _ _) with true; [reflexivity|]. symmetry. apply PeanoNat.Nat.leb_le. rewrite Hc. nia.
Qed.

Lemma own_idx_lt g m : pg_wf g -> In m (pg_shared g) -> own_idx g m < pg_n g.
Proof.
  intros W Hm. pose proof (wf_shared _ W _ Hm) as Hs. destruct (wf_n _ W) as [N1 _].
  apply (N1 m).
  - unfold measurements. rewrite !in_app_iff. auto.
  - unfold own_idx, own_pose, own_poses. unfold is_shared in Hs.
    destruct (mr1 m =? pg_id g) eqn:R1, (mr2 m =? pg_id g) eqn:R2; simpl in Hs; try discriminate; simpl; auto.
Qed.

Definition add_use (blk : Meas S -> Mx S -> Mx S) g (M : Mx S) m : Mx S :=
  match used g m with
  | None => M
  | Some X => add_blk (Datatypes.S (pg_d g)) M (own_idx g m) (blk m X)
  end.

Lemma loop_spec g step blk : pg_wf g ->
  (forall M m idx X, mr1 m = pg_id g -> step M m (UseOut idx X) = add_block (Datatypes.S (pg_d g)) M idx (blk m X)) ->
  (forall M m idx X, mr1 m <> pg_id g -> step M m (UseIn idx X) = add_block (Datatypes.S (pg_d g)) M idx (blk m X)) ->
  forall ms M, (forall m, In m ms -> In m (pg_shared g)) ->
  mcols M = (Datatypes.S (pg_d g) * N.to_nat (pg_n g))%nat ->
  shared_loop g step M ms =
    if existsb (missing g) ms then Ok None else Ok (Some (fold_left (add_use blk g) ms M)).
Proof.
  intros W HO HI. induction ms as [|m ms IH]; intros M Hin Hc; simpl; auto.
  assert (Hm : In m (pg_shared g)) by (apply Hin; left; auto).
  rewrite (shared_status_spec g m W Hm). simpl.
  destruct (missing g m); simpl; auto.
  unfold add_use at 2. 
  destruct (used g m) as [X|] eqn:U.
  - pose proof (own_idx_lt g m W Hm) as Hlt.
    destruct (N.eqb_spec (mr1 m) (pg_id g)).
    + rewrite HO by auto. rewrite (add_block_in _ _ _ _ (N.to_nat (pg_n g))); [|lia|auto]. simpl.
      rewrite IH; auto. intros; apply Hin; right; auto.
    + rewrite HI by auto. rewrite (add_block_in _ _ _ _ (N.to_nat (pg_n g))); [|lia|auto]. simpl.
      rewrite IH; auto. intros; apply Hin; right; auto.
  - apply IH; auto. intros; apply Hin; right; auto.
Qed.

Definition is_out g m : bool := mr1 m =? pg_id g.
Definition blkQ g m (_ : Mx S) : Mx S :=
  let d := pg_d g in
  if is_out g m then mmul (mmul (hom d m) (meas_omega d m)) (mtr (hom d m)) else meas_omega d m.
Definition blkG g m (X : Mx S) : Mx S :=
  let d := pg_d g in
  if is_out g m then mmul (mmul (mopp X) (meas_omega d m)) (mtr (hom d m))
  else mmul (mmul (mopp X) (hom d m)) (meas_omega d m).

Lemma fold_use_cols blk g ms : forall M, mcols (fold_left (add_use blk g) ms M) = mcols M.
Proof.
  induction ms as [|m ms IH]; intros M; simpl; auto. rewrite IH. unfold add_use. destruct (used g m); auto.
Qed.
Lemma fold_use_rows blk g ms : forall M, mrows (fold_left (add_use blk g) ms M) = mrows M.
Proof.
  induction ms as [|m ms IH]; intros M; simpl; auto. rewrite IH. unfold add_use. destruct (used g m); auto.
Qed.

Definition add_prior g (B : Mx S -> Mx S) (M : Mx S) (kv : N * Mx S) : Mx S :=
  add_blk (Datatypes.S (pg_d g)) M (fst kv) (B (snd kv)).

Lemma prior_loop g B : pg_wf g -> forall kvs M, (forall kv, In kv kvs -> In kv (pg_priors g)) ->
  mcols M = (Datatypes.S (pg_d g) * N.to_nat (pg_n g))%nat ->
  foldM (fun M kv => add_block (Datatypes.S (pg_d g)) M (fst kv) (B (snd kv))) M kvs =
  Ok (fold_left (add_prior g B) kvs M).
Proof.
  intros W. induction kvs as [|[i X] kvs IH]; intros M Hin Hc; simpl; auto.
  destruct (wf_priors _ W i X (Hin _ (or_introl eq_refl))) as [Hi _].
  rewrite (add_block_in _ _ _ _ (N.to_nat (pg_n g))); [|simpl; lia|auto]. simpl.
  apply IH; auto. intros; apply Hin; right; auto.
Qed.

Lemma fold_prior_cols g B kvs : forall M, mcols (fold_left (add_prior g B) kvs M) = mcols M.
Proof. induction kvs as [|kv kvs IH]; intros M; simpl; auto. rewrite IH. reflexivity. Qed.
Lemma fold_prior_rows g B kvs : forall M, mrows (fold_left (add_prior g B) kvs M) = mrows M.
Proof. induction kvs as [|kv kvs IH]; intros M; simpl; auto. rewrite IH. reflexivity. Qed.

(** The aggregated linear term. *)
Definition Gval g : Mx S :=
  fold_left (add_prior g (fun X => mmul (mopp X) (omega (pg_d g) prior_kappa prior_tau))) (pg_priors g)
    (fold_left (add_use (blkG g) g) (pg_shared g)
       (mzero (pg_r g) (Datatypes.S (pg_d g) * N.to_nat (pg_n g)))).

Lemma buildG_spec g : pg_wf g ->
  buildG g = Ok (if existsb (missing g) (pg_shared g) then None else Some (Gval g)).
Proof.
  intros W. unfold buildG. cbn zeta.
  rewrite (loop_spec g (stepG (pg_d g)) (blkG g) W); auto.
  - destruct (existsb _ _); simpl; auto.
    rewrite (prior_loop g (fun X => mmul (mopp X) (omega (pg_d g) prior_kappa prior_tau)) W); auto.
    rewrite fold_use_cols. reflexivity.
  - intros M m idx X E. unfold stepG, blkG, is_out. rewrite E, N.eqb_refl. reflexivity.
  - intros M m idx X E. unfold stepG, blkG, is_out. apply N.eqb_neq in E. rewrite E. reflexivity.
Qed.

(** The diagonal blocks added to Q. *)
Definition Qdiag g : Mx S :=
  fold_left (add_prior g (fun _ => omega (pg_d g) prior_kappa prior_tau)) (pg_priors g)
    (fold_left (add_use (blkQ g) g) (pg_shared g)
       (mzero (Datatypes.S (pg_d g)) (Datatypes.S (pg_d g) * N.to_nat (pg_n g)))).

Definition diag_triplets (dh n : nat) (M : Mx S) : list (trip S) :=
  flat_map (fun idx =>
     flat_map (fun r => map (fun c =>
        (idx * dh + r, idx * dh + c, M r (idx * dh + c)))%nat (seq 0 dh)) (seq 0 dh)) (seq 0 n).

Definition addDiag (dh n : nat) (QL M : Mx S) : res (Mx S) :=
  let ts := diag_triplets dh n M in
  require (in_range (mrows QL) (mcols QL) ts)
    (Ok (mkMx (mrows QL) (mcols QL) (fun i j => nadd (QL i j) (spcoef ts i j)))).

Lemma buildQ_spec g : pg_wf g ->
  buildQ g = do QL <- constructConnectionLaplacianSE (localMeasurements g);
             if existsb (missing g) (pg_shared g) then Ok None
             else do Q <- addDiag (Datatypes.S (pg_d g)) (N.to_nat (pg_n g)) QL (Qdiag g); Ok (Some Q).
Proof.
  intros W. unfold buildQ. cbn zeta.
  destruct (constructConnectionLaplacianSE (localMeasurements g)) as [QL| |]; simpl; auto.
  rewrite (loop_spec g (stepQ (pg_d g)) (blkQ g) W); auto.
  - destruct (existsb _ _); simpl; auto.
    rewrite (prior_loop g (fun _ => omega (pg_d g) prior_kappa prior_tau) W); auto.
    + simpl. unfold addDiag, require. fold (Qdiag g).
      unfold diag_triplets. destruct (in_range _ _ _); reflexivity.
    + rewrite fold_use_cols. reflexivity.
  - intros M m idx X E. unfold stepQ, blkQ, is_out. rewrite E, N.eqb_refl. reflexivity.
  - intros M m idx X E. unfold stepQ, blkQ, is_out. apply N.eqb_neq in E. rewrite E. reflexivity.
Qed.

(** The quadratic matrix without the check for missing poses. Shared edges are
    counted when the neighbour is active, or in use and known. *)
Definition qused g m : bool := active g m || (pg_useinact g && some (remote g m)).
Definition add_useQ g (M : Mx S) m : Mx S :=
  if qused g m then add_blk (Datatypes.S (pg_d g)) M (own_idx g m) (blkQ g m M) else M.
Definition Qdiag' g : Mx S :=
  fold_left (add_prior g (fun _ => omega (pg_d g) prior_kappa prior_tau)) (pg_priors g)
    (fold_left (add_useQ g) (pg_shared g)
       (mzero (Datatypes.S (pg_d g)) (Datatypes.S (pg_d g) * N.to_nat (pg_n g)))).
Definition Qfull g : res (Mx S) :=
  do QL <- constructConnectionLaplacianSE (localMeasurements g);
  addDiag (Datatypes.S (pg_d g)) (N.to_nat (pg_n g)) QL (Qdiag' g).

Lemma Qdiag_same g : existsb (missing g) (pg_shared g) = false -> Qdiag' g = Qdiag g.
Proof.
  intros Hm. unfold Qdiag', Qdiag. f_equal. generalize (mzero (S:=S) (Datatypes.S (pg_d g)) (Datatypes.S (pg_d g) * N.to_nat (pg_n g))).
  induction (pg_shared g) as [|m ms IH]; intros M; simpl; auto.
  simpl in Hm. apply orb_false_iff in Hm. destruct Hm as [Hm1 Hm2]. rewrite <- IH by auto. f_equal.
  unfold add_useQ, add_use, qused, used. unfold missing in Hm1.
  destruct (active g m); simpl in *.
  - destruct (remote g m); simpl in *; [reflexivity|discriminate].
  - destruct (pg_useinact g); simpl; auto. destruct (remote g m); reflexivity.
Qed.

Lemma buildQ_full g : pg_wf g -> forall Q, buildQ g = Ok (Some Q) ->
  Qfull g = Ok Q /\ existsb (missing g) (pg_shared g) = false.
Proof.
  intros W Q E. rewrite (buildQ_spec g W) in E. unfold Qfull.
  destruct (constructConnectionLaplacianSE _) as [QL| |]; simpl in *; try discriminate.
  destruct (existsb _ _) eqn:Hm; [discriminate|]. rewrite (Qdiag_same g Hm).
  apply bind_Ok in E. destruct E as [Q' [E1 E2]]. inversion E2; subst. auto.
Qed.

Lemma buildQ_none g : pg_wf g -> buildQ g = Ok None -> existsb (missing g) (pg_shared g) = true.
Proof.
  intros W E. rewrite (buildQ_spec g W) in E.
  destruct (constructConnectionLaplacianSE _) as [QL| |]; simpl in *; try discriminate.
  destruct (existsb _ _) eqn:Hm; auto.
  apply bind_Ok in E. destruct E as [Q' [E1 E2]]. discriminate.
Qed.

Lemma laplacian_no_abort ms : constructConnectionLaplacianSE ms <> Abort (A := Mx S).
Proof. unfold constructConnectionLaplacianSE, require. cbn zeta. destruct (_ && _); discriminate. Qed.

Lemma buildQ_no_abort g : pg_wf g -> buildQ g <> Abort.
Proof.
  intros W E. rewrite (buildQ_spec g W) in E.
  pose proof (laplacian_no_abort (localMeasurements g)) as HA.
  destruct (constructConnectionLaplacianSE _) as [QL| |]; simpl in *; try congruence.
  destruct (existsb _ _); [discriminate|].
  unfold addDiag, require in E. destruct (in_range _ _ _); discriminate.
Qed.

(** ** C08 *)
Lemma missing_iff g : pg_wf g -> (existsb (missing g) (pg_shared g) = false <-> needed_known g).
Proof.
  intros W. unfold needed_known. split.
  - intros E m Hm Ha. destruct (mfind pose_ltb _ _) eqn:F; eauto. exfalso.
    assert (existsb (missing g) (pg_shared g) = true).
    { apply existsb_exists. exists m. split; auto. unfold missing, active, act, remote. rewrite Ha, F. reflexivity. }
    congruence.
  - intros E. destruct (existsb _ _) eqn:F; auto. apply existsb_exists in F. destruct F as [m [Hm Hmi]].
    unfold missing in Hmi. apply andb_true_iff in Hmi. destruct Hmi as [A B].
    unfold active, act in A. destruct (isNeighborActive g (other_robot (pg_id g) m)) eqn:HA; try discriminate.
    subst. destruct (E m Hm HA) as [X F]. unfold remote in B. rewrite F in B. discriminate.
Qed.

Lemma set_Q_missing g q m : missing (set_pg_Q g q) m = missing g m.
Proof. reflexivity. Qed.

Lemma construct_spec g g' b : pg_wf g -> constructDataMatrices g = Ok (g', b) ->
  (pg_Q g = None \/ pg_G g = None -> (b = true <-> needed_known g)) /\
  (b = false -> g' = g) /\ (b = true -> pg_Q g' <> None /\ pg_G g' <> None) /\
  (pg_Q g <> None -> pg_Q g' = pg_Q g) /\ (pg_G g <> None -> pg_G g' = pg_G g).
Proof.
  intros W E. rewrite <- (missing_iff g W). unfold constructDataMatrices in E.
  destruct (pg_Q g) as [Q|] eqn:HQ.
  - simpl in E. destruct (pg_G g) as [G|] eqn:HG; simpl in E.
    + inversion E; subst. split; [intros [?|?]; congruence|]. repeat split; intros; congruence.
    + unfold constructG in E. rewrite (buildG_spec g W) in E. simpl in E.
      destruct (existsb _ _) eqn:Hm; simpl in E; inversion E; subst; repeat split; intros; cbn; try congruence; try discriminate.
  - unfold constructQ in E.
    destruct (buildQ g) as [[Q|]| |] eqn:HB; simpl in E; try discriminate.
    + destruct (buildQ_full g W Q HB) as [_ Hm].
      destruct (pg_G g) as [G|] eqn:HG; simpl in E.
      * inversion E; subst. repeat split; intros; cbn; try congruence.
      * unfold constructG in E. rewrite (buildG_spec _ (set_Q_wf g (Some Q) W)) in E. simpl in E.
        change (existsb (missing (set_pg_Q g (Some Q))) (pg_shared g)) with (existsb (missing g) (pg_shared g)) in E.
        rewrite Hm in E. simpl in E. inversion E; subst. repeat split; intros; cbn; try congruence.
    + pose proof (buildQ_none g W HB) as Hm. inversion E; subst.
      repeat split; intros; try congruence.
Qed.

Lemma construct_no_abort g : pg_wf g -> constructDataMatrices g <> Abort.
Proof.
  intros W E. unfold constructDataMatrices in E.
  destruct (pg_Q g) as [Q|] eqn:HQ.
  - simpl in E. destruct (pg_G g) as [G|] eqn:HG; simpl in E; [discriminate|].
    unfold constructG in E. rewrite (buildG_spec g W) in E. simpl in E. destruct (existsb _ _); discriminate.
  - unfold constructQ in E. pose proof (buildQ_no_abort g W).
    destruct (buildQ g) as [[Q|]| |] eqn:HB; simpl in E; try congruence.
    destruct (pg_G g) as [G|] eqn:HG; simpl in E; [discriminate|].
    unfold constructG in E. rewrite (buildG_spec _ (set_Q_wf g (Some Q) W)) in E. simpl in E.
    destruct (existsb _ _); discriminate.
Qed.

(** ** C07 *)
Record coh g : Prop := {
  coh_Q : forall Q, pg_Q g = Some Q -> Qfull g = Ok Q;
  coh_G : forall G, pg_G g = Some G -> buildG g = Ok (Some G);
  coh_P : forall P, pg_precon g = Some P -> exists Q, Qfull g = Ok Q /\ P = precon_matrix Q }.

Lemma coh_none g : pg_Q g = None -> pg_G g = None -> pg_precon g = None -> coh g.
Proof. intros A B C. constructor; intros; congruence. Qed.

Lemma Qfull_ext g g' : core_eq g g' -> Qfull g' = Qfull g.
Proof.
  intros (E1 & E2 & E3 & E4 & E5 & E6 & E7 & E8 & E9 & E10 & E11 & E12 & _).
  unfold Qfull, localMeasurements, Qdiag'. rewrite E2, E3, E6, E7, E11, E4.
  assert (HA : forall M m, add_useQ g' M m = add_useQ g M m).
  { intros M m. unfold add_useQ, qused, active, act, remote, own_idx, blkQ, is_out, isNeighborActive, hasNeighbor.
    rewrite E1, E5, E7, E9, E10, E12. reflexivity. }
  assert (HF : forall ms M, fold_left (add_useQ g') ms M = fold_left (add_useQ g) ms M).
  { induction ms as [|m ms IH]; intros M; simpl; auto. rewrite HA, IH. reflexivity. }
  rewrite HF.
  assert (HP : forall kvs M, fold_left (add_prior g' (fun _ => omega (pg_d g) prior_kappa prior_tau)) kvs M
     = fold_left (add_prior g (fun _ => omega (pg_d g) prior_kappa prior_tau)) kvs M).
  { induction kvs as [|kv kvs IH]; intros M; simpl; auto. rewrite IH. unfold add_prior. rewrite E7. reflexivity. }
  rewrite HP. reflexivity.
Qed.

Lemma buildG_ext g g' : core_eq g g' -> pg_wf g -> pg_wf g' -> buildG g' = buildG g.
Proof.
  intros (E1 & E2 & E3 & E4 & E5 & E6 & E7 & E8 & E9 & E10 & E11 & E12 & _) W W'.
  rewrite !buildG_spec by auto. f_equal.
  assert (HM : forall ms, existsb (missing g') ms = existsb (missing g) ms).
  { induction ms as [|m ms IH]; simpl; auto. rewrite IH. f_equal.
    unfold missing, active, act, remote, isNeighborActive, hasNeighbor. rewrite E1, E5, E9, E10. reflexivity. }
  rewrite E4, HM. destruct (existsb _ _); auto. f_equal. unfold Gval. rewrite E4, E6, E7, E8, E11.
  assert (HA : forall M m, add_use (blkG g') g' M m = add_use (blkG g) g M m).
  { intros M m. unfold add_use, used, active, act, remote, own_idx, blkG, is_out, isNeighborActive, hasNeighbor.
    rewrite E1, E5, E7, E9, E10, E12. reflexivity. }
  assert (HF : forall ms M, fold_left (add_use (blkG g') g') ms M = fold_left (add_use (blkG g) g) ms M).
  { induction ms as [|m ms IH]; intros M; simpl; auto. rewrite HA, IH. reflexivity. }
  rewrite HF.
  set (B := fun X => _).
  assert (HP : forall kvs M, fold_left (add_prior g' B) kvs M = fold_left (add_prior g B) kvs M).
  { induction kvs as [|kv kvs IH]; intros M; simpl; auto. rewrite IH. unfold add_prior. rewrite E7. reflexivity. }
  rewrite HP. reflexivity.
Qed.

(** With [useInactiveNeighbors(false)], Q does not depend on the pose cache. *)
Lemma Qfull_nposes g d : pg_useinact g = false -> Qfull (set_pg_G (set_pg_nposes g d) None) = Qfull g.
Proof.
  intros U. unfold Qfull, Qdiag'. cbn.
  assert (HF : forall ms M, fold_left (add_useQ (set_pg_G (set_pg_nposes g d) None)) ms M = fold_left (add_useQ g) ms M).
  { induction ms as [|m ms IH]; intros M; simpl; auto. rewrite IH. f_equal.
    unfold add_useQ, qused. cbn. rewrite U. reflexivity. }
  rewrite HF. reflexivity.
Qed.

Lemma coh_core g g' : core_eq g g' -> pg_wf g -> pg_wf g' ->
  (forall Q, pg_Q g' = Some Q -> pg_Q g = Some Q) ->
  (forall Q, pg_G g' = Some Q -> pg_G g = Some Q) ->
  (forall Q, pg_precon g' = Some Q -> pg_precon g = Some Q) -> coh g -> coh g'.
Proof.
  intros C W W' HQ HG HP K. constructor.
  - intros Q E. rewrite (Qfull_ext _ _ C). apply K; auto.
  - intros Q E. rewrite (buildG_ext _ _ C W W'). apply K; auto.
  - intros P E. rewrite (Qfull_ext _ _ C). apply K; auto.
Qed.

Lemma constructQ_coh g g' b : pg_wf g -> coh g -> constructQ g = Ok (g', b) -> coh g'.
Proof.
  intros W K E. pose proof (constructQ_core _ _ _ E) as C. pose proof (constructQ_wf _ _ _ W E) as W'.
  unfold constructQ in E. apply bind_Ok in E. destruct E as [[Q|] [E1 E2]]; inversion E2; subst; auto.
  constructor; cbn.
  - intros Q0 E. inversion E; subst. rewrite (Qfull_ext _ _ C). apply buildQ_full; auto.
  - intros G E. rewrite (buildG_ext _ _ C W W'). apply K; auto.
  - intros P E. rewrite (Qfull_ext _ _ C). apply K; auto.
Qed.

Lemma constructG_coh g g' b : pg_wf g -> coh g -> constructG g = Ok (g', b) -> coh g'.
Proof.
  intros W K E. pose proof (constructG_core _ _ _ E) as C. pose proof (constructG_wf _ _ _ W E) as W'.
  unfold constructG in E. apply bind_Ok in E. destruct E as [[Q|] [E1 E2]]; inversion E2; subst; auto.
  constructor; cbn.
  - intros Q0 E. rewrite (Qfull_ext _ _ C). apply K; auto.
  - intros G E. rewrite (buildG_ext _ _ C W W'). inversion E; subst; auto.
  - intros P E. rewrite (Qfull_ext _ _ C). apply K; auto.
Qed.

Lemma constructData_coh g g' b : pg_wf g -> coh g -> constructDataMatrices g = Ok (g', b) -> coh g'.
Proof.
  intros W K E. unfold constructDataMatrices in E. apply bind_Ok in E. destruct E as [[g1 b1] [E1 E]].
  assert (W1 : coh g1 /\ pg_wf g1).
  { destruct (pg_Q g); [inversion E1; subst; auto|]. split; [eapply constructQ_coh; eauto|eapply constructQ_wf; eauto]. }
  destruct W1 as [K1 W1]. destruct b1; simpl in E; [|inversion E; subst; auto].
  apply bind_Ok in E. destruct E as [[g2 b2] [E2 E]]. inversion E; subst.
  destruct (pg_G g1); [inversion E2; subst; auto|]. eapply constructG_coh; eauto.
Qed.

Lemma quadratic_coh g g' Q : pg_wf g -> coh g -> quadraticMatrix g = Ok (g', Q) ->
  coh g' /\ pg_wf g' /\ pg_Q g' = Some Q /\ Qfull g = Ok Q.
Proof.
  intros W K E. pose proof (quadratic_core _ _ _ E) as C. unfold quadraticMatrix in E.
  apply bind_Ok in E. destruct E as [[g1 b1] [E1 E]].
  assert (W1 : coh g1 /\ pg_wf g1).
  { destruct (pg_Q g); [inversion E1; subst; auto|]. split; [eapply constructQ_coh; eauto|eapply constructQ_wf; eauto]. }
  destruct W1 as [K1 W1]. destruct (pg_Q g1) eqn:HQ; inversion E; subst.
  split; [exact K1|]. split; [exact W1|]. split; [auto|].
  rewrite <- (Qfull_ext _ _ C). apply K1; auto.
Qed.

Lemma linear_coh g g' G : pg_wf g -> coh g -> linearMatrix g = Ok (g', G) ->
  coh g' /\ pg_wf g' /\ pg_G g' = Some G /\ buildG g = Ok (Some G).
Proof.
  intros W K E. pose proof (linear_core _ _ _ E) as C. unfold linearMatrix in E.
  apply bind_Ok in E. destruct E as [[g1 b1] [E1 E]].
  assert (W1 : coh g1 /\ pg_wf g1).
  { destruct (pg_G g); [inversion E1; subst; auto|]. split; [eapply constructG_coh; eauto|eapply constructG_wf; eauto]. }
  destruct W1 as [K1 W1]. destruct (pg_G g1) eqn:HQ; inversion E; subst.
  split; [exact K1|]. split; [exact W1|]. split; [auto|].
  rewrite <- (buildG_ext _ _ C W W1). apply K1; auto.
Qed.

Lemma precon_coh c g g' b : pg_wf g -> coh g -> hasPreconditioner c g = Ok (g', b) -> coh g'.
Proof.
  intros W K E. unfold hasPreconditioner in E. apply bind_Ok in E. destruct E as [[g1 b1] [E1 E]].
  inversion E; subst. destruct (pg_precon g); [inversion E1; subst; auto|].
  unfold constructPreconditioner in E1. apply bind_Ok in E1. destruct E1 as [[g2 Q] [E1 E2]].
  destruct (quadratic_coh _ _ _ W K E1) as (K2 & W2 & HQ & HF).
  destruct (c (precon_matrix Q)); inversion E2; subst; auto.
  assert (C : core_eq g2 (set_pg_precon g2 (Some (precon_matrix Q)))) by repeat split.
  constructor; cbn.
  - intros Q0 E0. rewrite (Qfull_ext _ _ C). apply K2; auto.
  - intros G E0. rewrite (buildG_ext _ _ C W2 (set_precon_wf _ _ W2)). apply K2; auto.
  - intros P E0. inversion E0; subst. exists Q. split; auto. rewrite (Qfull_ext _ _ C). apply K2; auto.
Qed.

Lemma some_false {A} (o : option A) : some o = false -> o = None.
Proof. destruct o; auto; discriminate. Qed.

Lemma Ok_injPGData {A} (x y : A) : Ok x = Ok y -> x = y.
Proof. intros E; inversion E; auto. Qed.

Lemma add_caches g m g' : addMeasurement g m = Ok g' ->
  pg_Q g' = pg_Q g /\ pg_G g' = pg_G g /\ pg_precon g' = pg_precon g.
Proof.
  intros HA. unfold addMeasurement in HA.
  destruct (mr1 m =? pg_id g) eqn:R1, (mr2 m =? pg_id g) eqn:R2; simpl in HA.
  - destruct (_ =? mp2 m); [unfold addOdometry in HA|unfold addPrivateLoopClosure in HA];
    (destruct (hasMeasurement _ _ _); [inversion HA; subst; auto|]);
    repeat (apply check_Ok in HA; destruct HA as [? HA]); inversion HA; subst; auto.
  - unfold addSharedLoopClosure in HA. destruct (hasMeasurement _ _ _); [inversion HA; subst; auto|].
    rewrite R1, R2 in HA. apply check_Ok in HA; destruct HA as [? HA]. apply Ok_injPGData in HA; rewrite <- HA; clear HA; split; [|split]; reflexivity.
  - unfold addSharedLoopClosure in HA. destruct (hasMeasurement _ _ _); [inversion HA; subst; auto|].
    rewrite R1, R2 in HA. apply check_Ok in HA; destruct HA as [? HA]. apply Ok_injPGData in HA; rewrite <- HA; clear HA; split; [|split]; reflexivity.
  - inversion HA; subst; auto.
Qed.

Lemma adds_caches ms : forall g g', foldM addMeasurement g ms = Ok g' ->
  pg_Q g' = pg_Q g /\ pg_G g' = pg_G g /\ pg_precon g' = pg_precon g.
Proof.
  induction ms as [|m ms IH]; intros g g' E; simpl in E.
  - inversion E; subst; auto.
  - apply bind_Ok in E. destruct E as [g1 [E1 E2]]. apply add_caches in E1. apply IH in E2.
    destruct E1 as (A & B & C), E2 as (A' & B' & C'). repeat split; congruence.
Qed.

Lemma modify_caches g p f : pg_Q (modify g p f) = pg_Q g /\ pg_G (modify g p f) = pg_G g /\ pg_precon (modify g p f) = pg_precon g.
Proof. destruct p; auto. Qed.

Lemma mset_same k b (a : list (N * bool)) : msorted N.ltb a -> mfind N.ltb k a = Some b -> mset N.ltb k b a = a.
Proof.
  unfold msorted. induction a as [|[k' b'] a IH]; simpl; [discriminate|].
  intros [HF HS]. destruct (k <? k') eqn:L1; [discriminate|].
  destruct (k' <? k) eqn:L2; intros E.
  - rewrite IH; auto.
  - inversion E; subst. reflexivity.
Qed.

Lemma step_coh g o g' stale : op_ok o -> pg_wf g -> (stale = false -> coh g) ->
  (reads o = true -> stale = false) -> pg_step g o = Ok g' ->
  (if cleans o then false else stale || dirties g o) = false -> coh g'.
Proof.
  intros Ho W K HR E HC. pose proof (pg_step_wf _ _ _ Ho W E) as W'.
  destruct o; simpl in Ho, E, HR, HC.
  - apply orb_false_iff in HC. destruct HC as [_ HC]. rewrite !orb_false_iff in HC.
    destruct HC as [[A B] C]. apply some_false in A, B, C.
    destruct (add_caches _ _ _ E) as (A' & B' & C'). apply coh_none; congruence.
  - unfold setMeasurements in E. destruct (adds_caches _ _ _ E) as (A' & B' & C'). apply coh_none; auto.
  - inversion E; subst. apply coh_none; auto.
  - inversion E; subst. apply coh_none; auto.
  - inversion E; subst. apply orb_false_iff in HC. destruct HC as [-> HC]. specialize (K eq_refl).
    destruct (pg_useinact g) eqn:U; simpl in HC.
    + apply orb_false_iff in HC. destruct HC as [A B]. apply some_false in A, B. apply coh_none; auto.
    + unfold clearNeighborPoses. constructor; cbn; intros.
      * rewrite Qfull_nposes by auto. apply K; auto.
      * discriminate.
      * rewrite Qfull_nposes by auto. apply K; auto.
  - inversion E; subst. apply orb_false_iff in HC. destruct HC as [-> HC]. specialize (K eq_refl).
    destruct (pg_useinact g) eqn:U; simpl in HC.
    + apply orb_false_iff in HC. destruct HC as [A B]. apply some_false in A, B. apply coh_none; auto.
    + unfold setNeighborPoses. constructor; cbn; intros.
      * rewrite Qfull_nposes by auto. apply K; auto.
      * discriminate.
      * rewrite Qfull_nposes by auto. apply K; auto.
  - inversion E; subst. apply orb_false_iff in HC. destruct HC as [_ HC]. rewrite !orb_false_iff in HC.
    destruct HC as [[A B] C]. apply some_false in A, B, C. apply coh_none; auto.
  - apply orb_false_iff in HC. destruct HC as [_ HC]. rewrite !orb_false_iff in HC.
    destruct HC as [[A B] C]. apply some_false in A, B, C.
    unfold setPrior in E. repeat (apply check_Ok in E; destruct E as [? E]). inversion E; subst. apply coh_none; auto.
  - apply orb_false_iff in HC. destruct HC as [-> _]. specialize (K eq_refl).
    unfold setNeighborActive in E. destruct (negb _); [inversion E; subst; auto|].
    destruct (mfind N.ltb k (pg_active g)) as [b0|] eqn:F; [|discriminate].
    inversion E; subst; clear E. destruct (eqb b0 b) eqn:Eb.
    + apply eqb_prop in Eb. subst b0.
      eapply coh_core; [..|exact K]; auto.
      unfold core_eq. cbn. rewrite (mset_same _ _ _ (wf_active_sorted _ W) F). repeat split.
    + apply coh_none; auto.
  - inversion E; subst. apply coh_none; auto.
  - rewrite orb_false_r in HC. subst stale. specialize (K eq_refl). inversion E; subst.
    eapply coh_core; [..|exact K]; auto; cbn; try discriminate. repeat split.
  - rewrite orb_false_r in HC. subst stale. specialize (K eq_refl). inversion E; subst.
    eapply coh_core; [..|exact K]; auto; cbn; try discriminate. repeat split.
  - inversion E; subst. apply coh_none; auto.
  - rewrite orb_false_r in HC. subst stale. specialize (K eq_refl).
    apply bind_Ok in E. destruct E as [[g1 b] [E1 E2]]. inversion E2; subst. exact (constructData_coh _ _ _ W K E1).
  - rewrite orb_false_r in HC. subst stale. specialize (K eq_refl).
    apply bind_Ok in E. destruct E as [[g1 b] [E1 E2]]. inversion E2; subst. exact (proj1 (quadratic_coh _ _ _ W K E1)).
  - rewrite orb_false_r in HC. subst stale. specialize (K eq_refl).
    apply bind_Ok in E. destruct E as [[g1 b] [E1 E2]]. inversion E2; subst. exact (proj1 (linear_coh _ _ _ W K E1)).
  - rewrite orb_false_r in HC. subst stale. specialize (K eq_refl).
    apply bind_Ok in E. destruct E as [[g1 b] [E1 E2]]. inversion E2; subst. exact (precon_coh _ _ _ _ W K E1).
  - rewrite orb_false_r in HC. subst stale. specialize (K eq_refl).
    rewrite updatePublic_same in E by auto. inversion E; subst; auto.
  - apply orb_false_iff in HC. destruct HC as [_ HC]. rewrite !orb_false_iff in HC.
    destruct HC as [[A B] C]. apply some_false in A, B, C. inversion E; subst.
    destruct (modify_caches g p (fun m => set_mfixed fixed (set_mweight w m))) as (A' & B' & C').
    apply coh_none; congruence.
Qed.

Lemma run_coh os : forall g g' stale, Forall op_ok os -> pg_wf g -> (stale = false -> coh g) ->
  disciplined stale g os -> pg_run g os = Ok g' -> coh g' /\ pg_wf g'.
Proof.
  induction os as [|o os IH]; intros g g' stale HF W K D E; unfold pg_run in *; simpl in *.
  - inversion E; subst; auto.
  - apply bind_Ok in E. destruct E as [g1 [E1 E2]]. inversion HF; subst. destruct D as [D1 D2].
    specialize (D2 g1 E1).
    eapply IH; [..|exact D2|exact E2]; auto.
    + eapply pg_step_wf; eauto.
    + intros HC. eapply step_coh; eauto.
Qed.

Lemma clear_exact (g : PoseGraph S) : clearDataMatrices g =
  mkPG (pg_id g) (pg_r g) (pg_d g) (pg_n g) (pg_odom g) (pg_priv g) (pg_shared g) (pg_lpub g) (pg_npub g) (pg_nbrs g)
    (pg_active g) (pg_nposes g) None None None (pg_index g) (pg_useinact g) (pg_priors g).
Proof. reflexivity. Qed.
Lemma clear_core g : core_eq g (clearDataMatrices g).
Proof. repeat split. Qed.

Lemma clear_wf g : pg_wf g -> pg_wf (clearDataMatrices g).
Proof. intros W. eapply wf_irrelevant; [..|exact W]; try reflexivity; apply W. Qed.

Lemma clear_coh g : coh (clearDataMatrices g).
Proof. apply coh_none; reflexivity. Qed.

(** Main statement for C07 on a coherent state. *)
Lemma cache_fresh g : pg_wf g -> coh g ->
  (forall g1 Q, quadraticMatrix g = Ok (g1, Q) ->
     forall g2 Q', quadraticMatrix (clearDataMatrices g) = Ok (g2, Q') -> Q = Q') /\
  (forall g1 G, linearMatrix g = Ok (g1, G) -> exists g2, linearMatrix (clearDataMatrices g) = Ok (g2, G)) /\
  (forall P, pg_precon g = Some P ->
     forall g2 Q', quadraticMatrix (clearDataMatrices g) = Ok (g2, Q') -> P = precon_matrix Q').
Proof.
  intros W K. repeat split.
  - intros g1 Q E g2 Q' E'. destruct (quadratic_coh _ _ _ W K E) as (_ & _ & _ & F).
    destruct (quadratic_coh _ _ _ (clear_wf g W) (clear_coh g) E') as (_ & _ & _ & F').
    rewrite (Qfull_ext _ _ (clear_core g)) in F'. congruence.
  - intros g1 G E. destruct (linear_coh _ _ _ W K E) as (_ & _ & _ & F).
    unfold linearMatrix. cbn. unfold constructG.
    rewrite (buildG_ext _ _ (clear_core g) W (clear_wf g W)), F. simpl. eauto.
  - intros P HP g2 Q' E'.
    destruct (quadratic_coh _ _ _ (clear_wf g W) (clear_coh g) E') as (_ & _ & _ & F').
    rewrite (Qfull_ext _ _ (clear_core g)) in F'.
    destruct (coh_P _ K _ HP) as (Q & F & ->). congruence.
Qed.

(** Under the discipline, [constructDataMatrices] answers exactly. *)
Lemma construct_iff g g' b : pg_wf g -> coh g -> constructDataMatrices g = Ok (g', b) ->
  (b = true <-> needed_known g).
Proof.
  intros W K E. destruct (construct_spec g g' b W E) as (A & B & C & D & F).
  destruct (pg_Q g) as [Q|] eqn:HQ; [|apply A; auto].
  destruct (pg_G g) as [G|] eqn:HG; [|apply A; auto].
  assert (b = true) as ->. { destruct b; auto. unfold constructDataMatrices in E. rewrite HQ in E. simpl in E.
    rewrite HG in E. inversion E. }
  split; auto. intros _. apply (missing_iff g W).
  pose proof (coh_G _ K _ HG) as EG. rewrite (buildG_spec g W) in EG.
  destruct (existsb _ _); auto; discriminate.
Qed.

End PG.
