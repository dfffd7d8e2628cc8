(** The multi-robot example's loop: iterating one robot always succeeds. *)
From Coq Require Import List NArith ZArith Bool Arith Lia Lra Reals.
From Verif Require Import Base SMap Num RSum ModelTypes ModelPoseGraph ModelProblem ModelPoses ModelSolver ModelAgent
  SpecPoseGraph SpecPGHist SpecCost SpecAgent SpecRun ProofsPoseGraph ProofsPGHist ProofsPGData ProofsCost ProofsCost2
  ProofsAgent ProofsAgent2 ProofsAgent3 ProofsAgent4 ProofsAgent5 ProofsStatus ProofsRun.
Import ListNotations.
Local Open Scope res_scope.
Implicit Types (g : PoseGraph R) (a : Agent R).

Lemma foldM_total {A B} (P : A -> Prop) (f : A -> B -> res A) l : forall u, P u ->
  (forall u b, P u -> In b l -> exists u', f u b = Ok u' /\ P u') -> exists u', foldM f u l = Ok u' /\ P u'.
Proof.
  induction l as [|b l IH]; intros u Pu F; cbn [foldM]; [eauto|].
  destruct (F u b Pu (or_introl eq_refl)) as (u1 & E & P1). rewrite E. cbn [bind]. apply IH; auto. intros; apply F; auto. right; auto.
Qed.

Lemma mapM_total {A B} (f : A -> res B) l : (forall u, In u l -> exists v, f u = Ok v) -> exists l', mapM f l = Ok l'.
Proof.
  induction l as [|u l IH]; intros F; cbn [mapM]; [eauto|].
  destruct (F u (or_introl eq_refl)) as (v & ->). cbn [bind].
  destruct IH as (l' & ->); [intros; apply F; right; auto|]. cbn. eauto.
Qed.

Lemma project_total (x : Ext R) r d n M : svd_sized x r d -> (d <= r)%nat -> mrows M = r -> mcols M = ((d + 1) * n)%nat ->
  exists M', manifold_project (x_svd_thin x) r d n M = Ok M' /\ mrows M' = r /\ mcols M' = ((d + 1) * n)%nat.
Proof.
  intros SV Hd HR HC. unfold manifold_project. rewrite HR, HC, !Nat.eqb_refl. cbn [check].
  apply (foldM_total (fun M' => mrows M' = r /\ mcols M' = ((d + 1) * n)%nat)); auto.
  intros u b [U1 U2] _. unfold projectToStiefelManifold. cbn [mcols mrows mblock].
  destruct (Nat.leb_spec d r); [|lia]. cbn [check].
  destruct (SV (mblock u 0 (b * (d + 1)) r d) eq_refl eq_refl) as [S1 S2].
  destruct (x_svd_thin x (mblock u 0 (b * (d + 1)) r d)) as [U V]. cbn [fst snd] in *. cbn [bind].
  unfold has_size. cbn [mrows mcols mmul mtr]. rewrite S1, S2, !Nat.eqb_refl. cbn [andb require].
  eexists. split; [reflexivity|]. cbn. auto.
Qed.

(** A robot's graph in the example. *)
Record base (g0 : PoseGraph R) : Prop := {
  b_ui : pg_useinact g0 = false; b_ns : no_self g0; b_lp : last_private g0 }.
(** The cache has all neighbour poses. *)
Definition full g0 (c : list (PoseID * Mx R)) : Prop :=
  forall m, In m (pg_shared g0) -> exists Z, mfind pose_ltb (other_pose (pg_id g0) m) c = Some Z.

Lemma setData_total {r d n} (A : PoseArr R) X : arr r d n A -> mrows X = r -> mcols X = ((d + 1) * n)%nat ->
  exists A', pa_setData A X = Ok A' /\ arr r d n A' /\ pa_X A' = X.
Proof.
  intros (A1 & A2 & A3 & _ & _) HR HC. unfold pa_setData. rewrite A1, A2, A3, HR, HC, !Nat.eqb_refl. cbn [check].
  eexists. split; [reflexivity|]. cbn. repeat split; auto.
Qed.

Lemma full_known g0 g c : like g0 g -> full g0 c -> needed_known (setNeighborPoses g c).
Proof.
  intros L F m Hm _. destruct (like_fields _ _ L) as (E1 & _ & _ & E4 & _). cbn in Hm |- *.
  rewrite E4 in Hm. rewrite E1. exact (F m Hm).
Qed.

Lemma updateX_total opt a b acc g0 : AInv a -> a_state a = INITIALIZED -> base g0 -> like g0 (a_pg a) -> opt_sized opt ->
  (acc = true -> p_accel (a_params a) = true) ->
  (b = true -> full g0 (if acc then a_naux a else a_ndict a)) ->
  exists a', ag_updateX opt a b acc = Ok (a', true) /\ like g0 (a_pg a') /\
    (b = false -> a' = if acc then sa_X a (a_Y a) else a) /\
    (b = true -> exists g, like g0 g /\ pg_nposes g = (if acc then a_naux a else a_ndict a) /\
       pa_X (a_X a') = snd (opt g (pa_X (if acc then a_Y a else a_X a)))).
Proof.
  intros I Hs Bs L SO Hacc Hf. unfold ag_updateX. destruct b; cbn [negb].
  2:{ eexists. split; [reflexivity|]. split; [destruct acc; exact L|]. split; auto. discriminate. }
  specialize (Hf eq_refl). assert (C0 : negb acc || p_accel (a_params a) = true) by (destruct acc; auto; rewrite Hacc; auto).
  rewrite C0. cbn [check]. assert (Hi : is_init a = true) by (apply is_init_eq; auto). rewrite Hi. cbn [check].
  set (c := if acc then a_naux a else a_ndict a) in *.
  assert (Sc : msorted pose_ltb c) by (unfold c; destruct acc; [apply (iv_na _ I)|apply (iv_nd _ I)]).
  destruct (construct_total g0 (setNeighborPoses (a_pg a) c)) as (g & E & Lg & En).
  { apply like_nbr; auto. apply Bs. } { apply full_known with g0; auto. } { apply Bs. } { apply Bs. }
  rewrite E. cbn [bind negb]. destruct (iv_X _ I ltac:(congruence)) as [_ AX].
  assert (A0 : arr (p_r (a_params a)) (p_d (a_params a)) (num_poses a) (if acc then a_Y a else a_X a)).
  { destruct acc; auto. apply (iv_acc _ I); auto. }
  destruct (like_fields _ _ L) as (_ & _ & _ & _ & _ & F6 & F7 & F8 & _).
  destruct (like_fields _ _ Lg) as (_ & _ & _ & _ & _ & G6 & G7 & G8 & _).
  set (X0 := pa_X (if acc then a_Y a else a_X a)) in *. destruct A0 as (_ & _ & _ & R0 & K0). fold X0 in R0, K0.
  replace (pa_X (if acc then a_Y (sa_pg a g) else a_X (sa_pg a g))) with X0 by (destruct acc; reflexivity).
  unfold relaxation_rank, dimension, num_poses. cbn [a_pg sa_pg].
  replace (pg_r g) with (p_r (a_params a)) by (pose proof (iv_r _ I); congruence).
  replace (pg_d g) with (p_d (a_params a)) by (pose proof (iv_d _ I); congruence).
  replace (pg_n g) with (pg_n (a_pg a)) by congruence. fold (num_poses a).
  rewrite R0, K0, !Nat.eqb_refl. cbn [check].
  assert (NK : needed_known g).
  { intros e He _. destruct (like_fields _ _ Lg) as (I1 & _ & _ & I4 & _). rewrite I4 in He. rewrite I1, En. apply Hf; auto. }
  destruct (like_f_defined g0 g X0 Lg NK) as (gf & vf & Ef); [apply Bs|apply Bs|pose proof (iv_r _ I); congruence|pose proof (iv_d _ I); rewrite K0; unfold num_poses; rewrite F6, <- F7, H; lia|].
  destruct (SO g X0 gf vf Ef) as [S1 S2]. destruct (opt g X0) as [p X1] eqn:EO. cbn [snd] in S1, S2.
  destruct (setData_total (a_X a) X1 AX) as (A' & EA & _ & PX); [congruence|congruence|].
  change (a_X (sa_pg (sa_pg a g) (set_pg_precon g p))) with (a_X a). rewrite EA. cbn [bind].
  eexists. split; [reflexivity|]. split.
  { cbn [a_pg sa_X sa_pg]. apply like_precon. exact Lg. }
  split; [discriminate|]. intros _. exists g. split; auto. split; [rewrite En; reflexivity|]. cbn [a_X sa_X]. rewrite EO, PX. reflexivity.
Qed.

Lemma updateStatus_total a s : AInv a -> a_state a = INITIALIZED -> arr (p_r (a_params a)) (p_d (a_params a)) (num_poses a) (a_XPrev a) ->
  exists st, ag_updateStatus a s = Ok (sa_status a st).
Proof.
  intros I Hs AP. unfold ag_updateStatus. destruct (iv_X _ I ltac:(congruence)) as [_ AX].
  destruct (distances _ _ _ _ _ AX AP) as (m & -> & _). cbn [bind].
  rewrite (statistics_spec (a_pg a) (iv_pg _ I)). cbn [bind]. eauto.
Qed.

Lemma updateY_total x a : AInv a -> a_state a = INITIALIZED -> p_accel (a_params a) = true ->
  svd_sized x (p_r (a_params a)) (p_d (a_params a)) -> exists Y, ag_updateY x a = Ok (sa_Y a Y).
Proof.
  intros I Hs Ha SV. unfold ag_updateY. rewrite Ha. assert (Hi : is_init a = true) by (apply is_init_eq; auto). rewrite Hi. cbn [check].
  destruct (iv_X _ I ltac:(congruence)) as [_ AX]. destruct (iv_acc _ I Ha Hs) as (AY & AV & _).
  pose proof AX as (_ & _ & _ & X1 & X2). pose proof AV as (_ & _ & _ & V1 & V2).
  unfold same_size. rewrite X1, X2, V1, V2, !Nat.eqb_refl. cbn [andb require].
  unfold relaxation_rank, dimension. rewrite (iv_r _ I), (iv_d _ I).
  match goal with |- context [manifold_project _ _ _ _ ?M] => destruct (project_total x _ _ (num_poses a) M SV (iv_dr _ I)) as (M' & -> & M1 & M2); [exact X1|exact X2|] end.
  cbn [bind]. destruct (setData_total (a_Y a) M' AY M1 M2) as (A' & -> & _). cbn. eauto.
Qed.
Lemma updateV_total x a : AInv a -> a_state a = INITIALIZED -> p_accel (a_params a) = true ->
  svd_sized x (p_r (a_params a)) (p_d (a_params a)) -> exists V, ag_updateV x a = Ok (sa_V a V).
Proof.
  intros I Hs Ha SV. unfold ag_updateV. rewrite Ha. assert (Hi : is_init a = true) by (apply is_init_eq; auto). rewrite Hi. cbn [check].
  destruct (iv_X _ I ltac:(congruence)) as [_ AX]. destruct (iv_acc _ I Ha Hs) as (AY & AV & _).
  pose proof AX as (_ & _ & _ & X1 & X2). pose proof AV as (_ & _ & _ & V1 & V2). pose proof AY as (_ & _ & _ & Y1 & Y2).
  unfold same_size. rewrite X1, X2, V1, V2, Y1, Y2, !Nat.eqb_refl. cbn [andb require].
  unfold relaxation_rank, dimension. rewrite (iv_r _ I), (iv_d _ I).
  match goal with |- context [manifold_project _ _ _ _ ?M] => destruct (project_total x _ _ (num_poses a) M SV (iv_dr _ I)) as (M' & -> & M1 & M2); [exact V1|exact V2|] end.
  cbn [bind]. destruct (setData_total (a_V a) M' AV M1 M2) as (A' & -> & _). cbn. eauto.
Qed.

Lemma restart_total opt a b g0 : AInv a -> a_state a = INITIALIZED -> base g0 -> like g0 (a_pg a) -> opt_sized opt ->
  (b = true -> full g0 (a_ndict a)) ->
  exists a', ag_restart opt a b = Ok a' /\ like g0 (a_pg a').
Proof.
  intros I Hs Bs L SO Hf. unfold ag_restart. destruct (p_accel (a_params a) && is_init a) eqn:Hc; [|eauto].
  apply andb_true_iff in Hc. destruct Hc as [Ha Hi].
  assert (I1 : AInv (sa_X a (a_XPrev a))).
  { destruct (iv_acc _ I Ha Hs) as (_ & _ & HP). pose proof (iv_X _ I) as QX. destruct I. constructor; auto. intros Hw. cbn. split; [apply QX; auto|auto]. }
  destruct (updateX_total opt (sa_X a (a_XPrev a)) b false g0 I1 Hs Bs L SO) as (a2 & E & L2 & _); [discriminate|exact Hf|].
  rewrite E. cbn [bind]. eexists. split; [reflexivity|exact L2].
Qed.

(** Iterating a robot whose caches have all neighbour poses. *)
Lemma iterate_total x opt a b g0 : AInv a -> a_state a = INITIALIZED -> base g0 -> like g0 (a_pg a) -> opt_sized opt ->
  robust a = false -> p_restart (a_params a) <> 0%N -> svd_sized x (p_r (a_params a)) (p_d (a_params a)) ->
  (b = true -> full g0 (a_ndict a)) -> (b = true -> p_accel (a_params a) = true -> full g0 (a_naux a)) ->
  exists a', ag_iterate x opt a b = Ok (a', true) /\ like g0 (a_pg a') /\
    (p_accel (a_params a) = false -> b = false -> a_X a' = a_X a) /\
    (p_accel (a_params a) = false -> b = true -> exists g, like g0 g /\ pg_nposes g = a_ndict a /\
       pa_X (a_X a') = snd (opt g (pa_X (a_X a)))).
Proof.
  intros I Hs Bs L SO Rb Pr SV F1 F2. unfold ag_iterate.
  set (a0 := sa_iter a (u32 (a_iter a + 1))). change (robust a0) with (robust a). rewrite Rb. cbn [bind].
  assert (Hi : is_init a = true) by (apply is_init_eq; auto). change (is_init a0) with (is_init a). rewrite Hi.
  assert (IB := fun gm al Y => iter_base_inv a I Hi (u32 (a_iter a + 1)) (a_inner a) gm al Y).
  assert (EI : sa_inner a0 (a_inner a) = a0) by (unfold a0; destruct a; reflexivity). fold a0 in IB. rewrite EI in IB.
  change (a_X a0) with (a_X a). set (a1 := sa_XPrev a0 (a_X a)) in *.
  assert (I1 : AInv a1) by exact (proj1 (IB (a_gamma a) (a_alpha a) (a_Y a))).
  assert (S1 : a_state a1 = INITIALIZED) by exact Hs. assert (P1 : a_params a1 = a_params a) by reflexivity.
  assert (G1 : a_pg a1 = a_pg a) by reflexivity. assert (X1 : a_X a1 = a_X a) by reflexivity.
  assert (N1 : a_ndict a1 = a_ndict a) by reflexivity. assert (N2 : a_naux a1 = a_naux a) by reflexivity.
  assert (XP1 : a_XPrev a1 = a_X a) by reflexivity.
  rewrite P1.
  (* the optimisation part *)
  assert (Main : exists a2, (if p_accel (a_params a) then
         do a <- ag_updateGamma a1;
         do a <- ag_updateAlpha a;
         do a <- ag_updateY x a;
         do '(a, success) <- ag_updateX opt a b true;
         do a <- ag_updateV x a;
         do again <- ag_shouldRestart a;
         do a <- (if again then ag_restart opt a b else Ok a);
         Ok (a, success)
       else ag_updateX opt a1 b false) = Ok (a2, true) /\ AInv a2 /\ a_state a2 = INITIALIZED /\ like g0 (a_pg a2) /\
       arr (p_r (a_params a2)) (p_d (a_params a2)) (num_poses a2) (a_XPrev a2) /\ a_params a2 = a_params a /\
       (p_accel (a_params a) = false -> b = false -> a_X a2 = a_X a) /\
       (p_accel (a_params a) = false -> b = true -> exists g, like g0 g /\ pg_nposes g = a_ndict a /\
          pa_X (a_X a2) = snd (opt g (pa_X (a_X a))))).
  { destruct (p_accel (a_params a)) eqn:Ha.
    - unfold ag_updateGamma. rewrite P1, Ha. change (is_init a1) with (is_init a). rewrite Hi. cbn [check bind].
      unfold ag_updateAlpha. cbn [a_params sa_gamma]. rewrite P1, Ha.
      match goal with |- context [is_init (sa_gamma a1 ?G)] => set (gm := G); change (is_init (sa_gamma a1 gm)) with (is_init a) end.
      rewrite Hi. cbn [check bind].
      match goal with |- context [sa_alpha (sa_gamma a1 gm) ?A] => set (al := A) end.
      set (b1 := sa_alpha (sa_gamma a1 gm) al).
      destruct (iv_acc _ I1) as (AY1 & AV1 & AP1); [congruence|exact S1|].
      assert (IB1 : AInv b1).
      { assert (E : b1 = sa_Y (sa_alpha (sa_gamma a1 gm) al) (a_Y a1)) by (unfold b1; destruct a1; reflexivity).
        rewrite E. apply IB. exact AY1. }
      destruct (updateY_total x b1) as (Y & EY); auto.
      rewrite EY. cbn [bind]. destruct (updateY_form x b1 _ EY IB1) as (Y' & EqY & AY & _).
      assert (IB2 : AInv (sa_Y b1 Y)) by (apply IB; replace Y with Y' by (symmetry; exact (f_equal a_Y EqY)); exact AY).
      set (b2 := sa_Y b1 Y) in *.
      destruct (updateX_total opt b2 b true g0 IB2 S1 Bs L SO) as (b3 & EX & L3 & _); [intros _; exact Ha|intros Hb; exact (F2 Hb eq_refl)|].
      rewrite EX. cbn [bind]. pose proof (updateX_inv opt b2 b true b3 true EX IB2 (fun _ => Ha) S1) as IB3.
      destruct (updateX_frame opt b2 b true b3 true EX IB2 (fun _ => Ha) S1) as (Fr & _ & _).
      destruct Fr as (_ & Fp & Fs & _ & _ & _ & _ & _ & _ & _ & _ & _ & _ & _ & Fd & Fa & _).
      assert (S3 : a_state b3 = INITIALIZED) by (rewrite Fs; exact S1).
      assert (P3 : a_params b3 = a_params a) by (rewrite Fp; reflexivity).
      assert (D3 : a_ndict b3 = a_ndict a) by (rewrite Fd; reflexivity).
      destruct (updateV_total x b3 IB3 S3) as (V & EV); [rewrite P3; exact Ha|rewrite P3; exact SV|].
      rewrite EV. cbn [bind]. destruct (updateV_form x b3 _ EV IB3) as (V' & EqV & AV & _).
      assert (IB4 : AInv (sa_V b3 V)).
      { assert (V = V') by exact (f_equal a_V EqV). subst V'. clear EqV EV. pose proof (iv_acc _ IB3) as QA. destruct IB3. constructor; auto.
        intros Hx Hy. destruct (QA Hx Hy) as (Q1 & Q2 & Q3). split; auto. }
      set (b4 := sa_V b3 V) in *.
      unfold ag_shouldRestart. change (a_params b4) with (a_params b3). rewrite P3, Ha.
      destruct (N.eqb_spec (p_restart (a_params a)) 0) as [Hc|_]; [contradiction|]. cbn [negb require bind].
      match goal with |- context [if ?c then ag_restart opt b4 b else Ok b4] => set (again := c) end.
      destruct (restart_total opt b4 b g0 IB4 S3 Bs L3 SO) as (b5 & ER & L5).
      { intros Hb. change (a_ndict b4) with (a_ndict b3). rewrite D3. auto. }
      assert (Fin : exists a2, (if again then ag_restart opt b4 b else Ok b4) = Ok a2 /\ AInv a2 /\ a_state a2 = INITIALIZED /\ like g0 (a_pg a2) /\ a_params a2 = a_params a).
      { destruct again.
        - exists b5. split; [exact ER|]. split; [exact (restart_inv opt b4 b b5 ER IB4)|].
          destruct (restart_frame opt b4 b b5 ER IB4) as ((_ & Rp & Rs & _) & _).
          split; [rewrite Rs; exact S3|]. split; [exact L5|]. rewrite Rp. exact P3.
        - exists b4. split; [reflexivity|]. split; [exact IB4|]. split; [exact S3|]. split; [exact L3|exact P3]. }
      destruct Fin as (a2 & -> & I2 & S2 & L2 & P2). cbn [bind]. exists a2. split; [reflexivity|]. split; [exact I2|]. split; [exact S2|]. split; [exact L2|].
      split; [apply (iv_acc _ I2); congruence|]. split; [exact P2|]. split; discriminate.
    - destruct (updateX_total opt a1 b false g0 I1 S1 Bs L SO) as (a2 & E & L2 & K1 & K2); [discriminate|exact F1|].
      exists a2. split; [exact E|]. split; [apply (updateX_inv opt a1 b false a2 true E I1); [discriminate|exact S1]|].
      destruct (updateX_form opt a1 b false a2 true E I1 ltac:(discriminate) S1) as (X' & g' & E2 & GS & _).
      assert (S2 : a_state a2 = INITIALIZED) by (rewrite E2; exact S1).
      assert (P2 : a_params a2 = a_params a) by (rewrite E2; reflexivity).
      assert (XP2 : a_XPrev a2 = a_X a) by (rewrite E2; reflexivity).
      assert (NN : num_poses a2 = num_poses a) by (rewrite E2; unfold num_poses; cbn [a_pg sa_X sa_pg]; rewrite (gs_n _ _ GS); reflexivity).
      split; [exact S2|]. split; [exact L2|]. split; [rewrite P2, XP2, NN; apply (iv_X _ I); congruence|]. split; [exact P2|].
      split; [intros _ Hb; rewrite (K1 Hb); reflexivity|]. intros _ Hb. destruct (K2 Hb) as (g & ? & ? & ?). exists g. auto. }
  destruct Main as (a2 & E & I2 & S2 & L2 & AP & P2 & K1 & K2). rewrite E. cbn [bind].
  assert (Fin : exists a3, (if b then ag_updateStatus a2 true else Ok a2) = Ok a3 /\ a_pg a3 = a_pg a2 /\ a_X a3 = a_X a2).
  { destruct b; [|eauto]. destruct (updateStatus_total a2 true I2 S2 AP) as (st & ->). eexists. split; [reflexivity|]. auto. }
  destruct Fin as (a3 & -> & G3 & X3). cbn [bind]. eexists. split; [reflexivity|].
  match goal with |- context [sa_pubasync ?A true] => set (a4 := A) end.
  assert (G4 : a_pg (sa_pubasync a4 true) = a_pg a2) by (change (a_pg a4 = a_pg a2); unfold a4; destruct (b || _); exact G3).
  assert (X4 : a_X (sa_pubasync a4 true) = a_X a2) by (change (a_X a4 = a_X a2); unfold a4; destruct (b || _); exact X3).
  rewrite G4, X4. auto.
Qed.
