(** Proofs about robust averaging (C23, C24). *)
From Coq Require Import List NArith ZArith Bool Arith Lia Reals Lra Psatz Sorted.
From Verif Require Import Base Num RSum Det ModelTypes ModelRobust ModelPoses ModelProblem ModelSolver
  SpecCost SpecRobust SpecSolver MatR ProofsPoseGraph ProofsRobust ProofsSolver.
Import ListNotations.
Local Open Scope R_scope.

Lemma maxCoeff_ub (v : list R) x : In x v -> x <= maxCoeff v.
Proof.
  destruct v as [|y l]; [intros []|]. simpl.
  assert (G : forall (l : list R) y z, z = y \/ In z l -> z <= fold_left (fun m y => if (if Rlt_dec m y then true else false) then y else m) l y).
  { clear. induction l as [|a l IH]; intros y z Hz; simpl.
    - destruct Hz as [->|[]]. lra.
    - destruct (Rlt_dec y a) as [L|L].
      + destruct Hz as [->|[->|Hz]].
        * apply Rle_trans with a; [lra|]. apply IH. auto.
        * apply IH; auto.
        * apply IH; auto.
      + destruct Hz as [->|[->|Hz]].
        * apply IH; auto.
        * apply Rle_trans with y; [lra|]. apply IH; auto.
        * apply IH; auto. }
  intros [->|Hx]; apply G; auto.
Qed.
Lemma maxCoeff_in (v : list R) : v <> [] -> In (maxCoeff v) v.
Proof.
  destruct v as [|y l]; [congruence|]. intros _. simpl.
  assert (G : forall (l : list R) y, let m := fold_left (fun m y => if (if Rlt_dec m y then true else false) then y else m) l y in m = y \/ In m l).
  { clear. induction l as [|a l IH]; intros y; simpl; auto.
    destruct (Rlt_dec y a).
    - destruct (IH a); [right; left|]; auto.
    - destruct (IH y); auto. }
  destruct (G l y) as [E|E]; [left|right]; auto.
Qed.

Lemma filter_all {A} (p : A -> bool) l : (forall x, In x l -> p x = true) -> filter p l = l.
Proof. induction l as [|a l IH]; intros Hl; simpl; auto. rewrite Hl by (simpl; auto). f_equal. apply IH. intros; apply Hl; simpl; auto. Qed.

Lemma w_tol_R : w_tol = / 100000000.
Proof. unfold w_tol, nlit. numr. unfold Rdiv. ring. Qed.

(** A weight above 1 - 1e-8 means a residual below the threshold. *)
Lemma gw_inlier mu c r : 0 < mu -> 0 < c -> 0 <= r -> 1 - w_tol < gw mu c r -> r * r < c * c.
Proof.
  rewrite w_tol_R. intros Hm Hc Hr Hw.
  destruct (gw_cases mu c Hm r Hr) as [[A E]|[[A [B E]]|[A [B [E C]]]]].
  - rewrite E in Hw. lra.
  - apply Rle_lt_trans with (glow mu c); auto. unfold glow.
    apply Rmult_lt_reg_r with (mu + 1); [lra|].
    replace (mu / (mu + 1) * (c * c) * (mu + 1)) with (mu * (c * c)) by (field; lra). nra.
  - rewrite E in Hw. destruct (gmid_sq mu c Hm r A) as [Q P].
    set (x := gmid mu c r + mu) in *. assert (X : mu + 1 - / 100000000 < x) by (unfold x; lra).
    assert (XX : mu * (mu + 1) < x * x) by nra.
    apply Rnot_le_lt. intros L.
    assert (mu * (mu + 1) * (r * r) < x * x * (r * r)) by (apply Rmult_lt_compat_r; nra). nra.
Qed.

Definition good_ws (n : nat) (ws : list R) : Prop :=
  length ws = n /\ Forall (fun w => 0 <= w <= 1) ws /\ Exists (fun w => 0 < w) ws.

Section Gnc.
Context {E : Type} (average : list R -> res E) (residuals : E -> res (list R)) (n : nat).
Hypothesis res_nonneg : forall e rs, residuals e = Ok rs -> length rs = n /\ Forall (fun r => 0 <= r) rs.

Definition gnc_cost (c : R) (cost : RobustCost R) : Prop :=
  costType (rc_params cost) = GNC_TLS /\ GNCBarc (rc_params cost) = c /\
  0 < GNCMuStep (rc_params cost) /\ 0 < rc_mu cost.

Lemma gnc_cost_update c cost : gnc_cost c cost -> gnc_cost c (rc_update cost).
Proof.
  intros (A & B & C & D). unfold rc_update. destruct (negb _); [repeat split; auto|].
  destruct (N.ltb _ _); repeat split; simpl; auto. apply Rmult_lt_0_compat; auto.
Qed.

Lemma gnc_loop_spec c : 0 < c -> forall fuel est ws cost e w calls,
  gnc_cost c cost -> good_ws n ws -> gnc_loop average residuals fuel est ws cost = Ok (e, w, calls) ->
  (fuel = O /\ e = est /\ w = ws /\ calls = []) \/
  ((exists rs mu, residuals e = Ok rs /\ 0 < mu /\ w = map (fun r => gw mu c (sqrt r)) rs) /\
   (exists u, average u = Ok e) /\
   Forall (good_ws n) calls /\ (length calls <= fuel)%nat).
Proof.
  intros Hc. induction fuel as [|fuel IH]; intros est ws cost e w calls Gc Gw HL.
  - left. simpl in HL. injection HL as <- <- <-. auto.
  - right. cbn [gnc_loop] in HL.
    destruct (average ws) as [est'| |] eqn:EA; try discriminate. cbn [bind] in HL.
    destruct (residuals est') as [rs| |] eqn:ER; try discriminate. cbn [bind] in HL.
    destruct (res_nonneg est' rs ER) as [Lr Pr].
    set (ws' := map (fun rSq => weight cost (nsqrt rSq)) rs) in HL.
    assert (Ew : ws' = map (fun r => gw (rc_mu cost) c (sqrt r)) rs).
    { unfold ws'. apply map_ext. intros r. rewrite weight_gnc_R by apply Gc. destruct Gc as (_ & -> & _). reflexivity. }
    assert (Pos : 0 < rc_mu cost) by apply Gc.
    destruct (forallb converged_weight ws') eqn:EC.
    + injection HL as <- <- <-. split; [|split; [|split]].
      * exists rs, (rc_mu cost). auto.
      * eauto.
      * constructor; auto.
      * simpl. lia.
    + destruct (gnc_loop average residuals fuel est' ws' (rc_update cost)) as [[[e' w'] c']| |] eqn:EL; try discriminate.
      cbn [bind] in HL. injection HL as <- <- <-.
      assert (Gw' : good_ws n ws').
      { split; [|split].
        - unfold ws'. rewrite map_length. auto.
        - rewrite Ew. apply Forall_forall. intros x Hx. apply in_map_iff in Hx. destruct Hx as (r & <- & _).
          apply gw_unit; auto. apply sqrt_pos.
        - apply Exists_exists.
          assert (EX : exists x, In x ws' /\ converged_weight x = false).
          { clear - EC. induction ws' as [|a l IHl]; simpl in EC; [discriminate|].
            destruct (converged_weight a) eqn:Ea; [|exists a; simpl; auto].
            destruct (IHl EC) as (x & Hx & Fx). exists x; simpl; auto. }
          destruct EX as (x & Hx & Fx). exists x. split; auto. unfold converged_weight in Fx.
          apply orb_false_iff in Fx. destruct Fx as [F1 _]. numr_in F1. rewrite w_tol_R in F1.
          destruct (Rlt_dec x (/ 100000000)); [discriminate|]. lra. }
      destruct (IH est' ws' (rc_update cost) e' w' c' (gnc_cost_update c cost Gc) Gw' EL) as [(-> & -> & -> & ->)|(A & B & C & D)].
      * split; [|split; [|split]].
        -- exists rs, (rc_mu cost). auto.
        -- eauto.
        -- constructor; auto.
        -- simpl. lia.
      * split; [|split; [|split]]; auto. simpl. lia.
Qed.

Variable mudiv : R -> R -> R.
Hypothesis mudiv_nz : forall a b, b <> 0 -> mudiv a b = a / b.

Lemma ones_good : (0 < n)%nat -> good_ws n (ones n).
Proof.
  intros Hn. unfold ones. split; [apply repeat_length|]. split.
  - apply Forall_forall. intros x Hx. apply repeat_spec in Hx. subst. numr. lra.
  - destruct n; [lia|]. simpl. left. numr. lra.
Qed.

Lemma nth_ones i : (i < n)%nat -> nth i (ones n) (0 : R) = 1.
Proof.
  intros Hi. change (ones n) with (repeat 1 n). apply (repeat_spec n 1). apply nth_In. rewrite repeat_length. auto.
Qed.

Theorem gnc_average_spec c maxIters e inl calls : (0 < n)%nat -> 0 < c -> (0 < maxIters)%N ->
  gnc_average mudiv average residuals n c maxIters = Ok (e, inl, calls) ->
  exists e0 rs0 rs, average (ones n) = Ok e0 /\ residuals e0 = Ok rs0 /\ residuals e = Ok rs /\
    (exists u, average u = Ok e) /\
    StronglySorted lt inl /\ (forall i, In i inl -> (i < n)%nat /\ nth i rs 0 < c * c) /\
    ((forall i, (i < n)%nat -> nth i rs0 0 < c * c / 2) -> e = e0 /\ inl = seq 0 n) /\
    Forall (good_ws n) calls /\ (length calls <= N.to_nat maxIters + 1)%nat.
Proof.
  intros Hn Hc Hm HG. unfold gnc_average in HG.
  destruct (average (ones n)) as [e0| |] eqn:EA; try discriminate. cbn [bind] in HG.
  destruct (residuals e0) as [rs0| |] eqn:ER; try discriminate. cbn [bind] in HG.
  destruct (res_nonneg e0 rs0 ER) as [L0 P0].
  assert (NE : rs0 <> []) by (intros ->; simpl in L0; lia).
  change (@nltb R NumR) with (fun a b : R => if Rlt_dec a b then true else false) in HG at 1.
  set (m := maxCoeff rs0) in HG.
  set (mu0 := nmin _ _) in HG.
  assert (Sorted_filter : forall p k s, StronglySorted lt (filter p (seq s k)) /\ Forall (fun x => (s <= x)%nat) (filter p (seq s k))).
  { clear. intros p. induction k as [|k IH]; intros s; simpl; [split; constructor|].
    destruct (IH (S s)) as [A B]. assert (B' : Forall (fun x => (s <= x)%nat) (filter p (seq (S s) k))).
    { eapply Forall_impl; [|exact B]. simpl. intros; lia. }
    destruct (p s); auto. split; [constructor; auto|constructor; auto]. }
  assert (Mu : 0 < mu0 \/ (mu0 <= 0 /\ 2 * m <= c * c)).
  { destruct (Rlt_dec 0 mu0) as [L|L]; auto. right. split; [lra|].
    apply Rnot_lt_le. intros G. apply L. unfold mu0. rewrite mudiv_nz by (numr; lra). unfold nmin, nlit. numr.
    destruct (Rlt_dec _ _); [lra|]. apply Rdiv_lt_0_compat; [nra|]. change (IZR 2) with 2. lra. }
  assert (Small : (forall i, (i < n)%nat -> nth i rs0 0 < c * c / 2) -> mu0 <= 0).
  { intros HS. assert (G : m < c * c / 2).
    { assert (Im := maxCoeff_in rs0 NE). fold m in Im. apply (In_nth _ _ 0) in Im. destruct Im as (i & Hi & <-). apply HS. lia. }
    unfold mu0. rewrite mudiv_nz by (numr; lra). unfold nmin, nlit. numr. change (IZR 2) with 2.
    assert (D : c * c / (2 * m - c * c) < 0).
    { unfold Rdiv. apply Ropp_lt_cancel. rewrite Ropp_0, Ropp_mult_distr_r. rewrite <- Rinv_opp.
      apply Rmult_lt_0_compat; [nra|]. apply Rinv_0_lt_compat. lra. }
    destruct (Rlt_dec _ _); lra. }
  cbv beta in HG. change (@n0 R NumR) with 0 in HG.
  destruct (Rlt_dec 0 mu0) as [L|L].
  - match type of HG with bind ?X _ = _ => destruct X as [[[e1 w1] c1]| |] eqn:EL; try discriminate end.
    cbn [bind] in HG. injection HG as He Hi Hcl. subst e1 calls.
    match type of EL with gnc_loop _ _ _ _ _ ?C = _ => set (cost := C) in EL end.
    assert (Gc : gnc_cost c cost).
    { unfold cost, gnc_cost. rewrite params_new. cbn [costType GNCBarc GNCMuStep]. split; auto. split; auto.
      split; [unfold default_robust; cbn [GNCMuStep]; unfold nlit; numr; lra|]. unfold rc_new, rc_reset. simpl. auto. }
    destruct (gnc_loop_spec c Hc _ _ _ _ _ _ _ Gc (ones_good Hn) EL) as [(Z & _)|(A & B & C & D)].
    { exfalso. lia. }
    destruct A as (rs & mu & Er & Pm & Ew). exists e0, rs0, rs. split; auto. split; auto. split; auto. split; auto.
    destruct (res_nonneg e rs Er) as [Lr Pr].
    split; [rewrite <- Hi; apply Sorted_filter|]. split; [|split; [|split]].
    + intros i Ii. rewrite <- Hi in Ii. apply filter_In in Ii. destruct Ii as [Is If]. apply in_seq in Is. split; [lia|].
      rewrite Ew in If. numr_in If. destruct (Rlt_dec _ _) as [Lw|]; [|discriminate].
      rewrite (nth_indep _ 0 (gw mu c (sqrt 0))) in Lw by (rewrite map_length; lia).
      rewrite (map_nth (fun r => gw mu c (sqrt r))) in Lw.
      assert (N0 : 0 <= nth i rs 0). { rewrite Forall_forall in Pr. apply Pr, nth_In. lia. }
      rewrite <- (sqrt_sqrt (nth i rs 0)) by auto.
      apply (gw_inlier mu c); auto. apply sqrt_pos.
    + intros HS. specialize (Small HS). lra.
    + constructor; auto. apply ones_good; auto.
    + simpl. lia.
  - cbn [bind] in HG. injection HG as He Hi Hcl. subst e calls.
    destruct Mu as [?|[M1 M2]]; [lra|].
    assert (AllIn : inl = seq 0 n).
    { rewrite <- Hi. apply filter_all. intros i Ii. apply in_seq in Ii. rewrite (nth_ones i) by lia. numr.
      destruct (Rlt_dec _ _) as [|F]; auto. exfalso. apply F. lra. }
    exists e0, rs0, rs0. split; auto. split; auto. split; auto. split; [eauto|].
    split; [rewrite <- Hi; apply Sorted_filter|]. split; [|split; [|split]].
    + intros i Ii. rewrite AllIn in Ii. apply in_seq in Ii. split; [lia|].
      assert (nth i rs0 0 <= m) by (apply maxCoeff_ub, nth_In; lia). nra.
    + auto.
    + constructor; auto. apply ones_good; auto.
    + simpl. lia.
Qed.
End Gnc.

(** ** Totality *)
Section Total.
Context {E : Type} (average : list R -> res E) (residuals : E -> res (list R)) (n : nat).
Hypothesis total : forall ws, length ws = n -> exists e rs, average ws = Ok e /\ residuals e = Ok rs /\ length rs = n.

Lemma gnc_loop_total : forall fuel est ws cost, length ws = n ->
  exists x, gnc_loop average residuals fuel est ws cost = Ok x.
Proof.
  induction fuel as [|fuel IH]; intros est ws cost L; cbn [gnc_loop]; [eauto|].
  destruct (total ws L) as (e & rs & -> & Hr & Lr). cbn [bind]. rewrite Hr. cbn [bind].
  destruct (forallb _ _); [eauto|].
  match goal with |- context [gnc_loop average residuals fuel ?a ?b ?c] =>
    destruct (IH a b c) as [[[x1 x2] x3] ->] end.
  - rewrite map_length. auto.
  - cbn [bind]. eauto.
Qed.

Lemma gnc_average_total mudiv c k : exists x, gnc_average mudiv average residuals n c k = Ok x.
Proof.
  unfold gnc_average. destruct (total (ones n)) as (e & rs & -> & Hr & Lr); [apply repeat_length|].
  cbn [bind]. rewrite Hr. cbn [bind].
  destruct (nltb _ _).
  - match goal with |- context [gnc_loop average residuals ?f ?a ?b ?c] =>
      destruct (gnc_loop_total f a b c) as [[[x1 x2] x3] ->] end; [apply repeat_length|].
    cbn [bind]. eauto.
  - cbn [bind]. eauto.
Qed.
End Total.

Lemma map_combine_nth {A B} (f : A * B -> R) (la : list A) (lb : list B) a b i :
  length la = length lb -> (i < length la)%nat -> nth i (map f (combine la lb)) 0 = f (nth i la a, nth i lb b).
Proof.
  intros L Hi. rewrite (nth_indep _ 0 (f (a, b))) by (rewrite map_length, combine_length; lia).
  rewrite map_nth, combine_nth by auto. reflexivity.
Qed.

Lemma cwise_length a b : length a = length b -> length (cwise a b : list R) = length a.
Proof. intros. unfold cwise. rewrite map_length, combine_length. lia. Qed.

Lemma cwise_ones n (a : list R) : length a = n -> cwise a (ones n) = a.
Proof.
  revert n. induction a as [|x a IH]; intros [|n] L; try discriminate; auto.
  change (cwise (x :: a) (ones (S n))) with ((x * 1)%R :: cwise a (ones n)). rewrite IH by (simpl in L; lia). f_equal. ring.
Qed.

Lemma total_weight_pos n a ws : length a = n -> Forall (fun x => 0 < x) a -> good_ws n ws ->
  0 < rsumL (fun x => x) (cwise a ws).
Proof.
  intros L Pa (Lw & Pw & Ex). assert (L' : length a = length ws) by congruence. clear L Lw. rename L' into L. revert a L Pa. induction Ex as [w ws Hw|w ws Ex IH]; intros a L Pa.
  - destruct a as [|x a]; [discriminate|]. unfold cwise. simpl combine. simpl map. rewrite rsumL_cons. cbn [fst snd].
    inversion Pa; subst. inversion Pw; subst.
    assert (0 <= rsumL (fun y => y) (map (fun p : R * R => (fst p * snd p)%num) (combine a ws))).
    { apply rsumL_nonneg. intros y Hy. apply in_map_iff in Hy. destruct Hy as ((u & v) & <- & Hi). numr. cbn [fst snd].
      pose proof (in_combine_l _ _ _ _ Hi) as Hu. pose proof (in_combine_r _ _ _ _ Hi) as Hv.
      rewrite Forall_forall in H2, H4. specialize (H2 u Hu). specialize (H4 v Hv). nra. }
    numr. assert (0 < x * w) by (apply Rmult_lt_0_compat; auto). numr_in H. lra.
  - destruct a as [|x a]; [discriminate|]. inversion Pa; subst. inversion Pw; subst. unfold cwise in *. simpl combine. simpl map.
    rewrite rsumL_cons. cbn [fst snd]. assert (0 < rsumL (fun x => x) (map (fun p : R * R => (fst p * snd p)%num) (combine a ws))) by (apply IH; simpl in *; auto; lia).
    numr. numr_in H. assert (0 <= x * w) by (apply Rmult_le_pos; lra). lra.
Qed.

Lemma check_rotations d RVec : Forall (sized d d) RVec -> foldM (fun _ Q => checkRotationMatrix Q) tt RVec = Ok tt.
Proof.
  intros H. induction H as [|Q l [Q1 Q2] Hl IH]; auto. cbn [foldM]. unfold checkRotationMatrix. rewrite Q1, Q2, Nat.eqb_refl.
  cbn [check bind]. exact IH.
Qed.

Lemma rotation_projection_sized svd (dt : Mx R -> R) d M :
  (forall M, sized d d M -> sized d d (fst (svd M)) /\ sized d d (snd (svd M))) -> sized d d M ->
  sized d d (projectToRotationGroup svd dt M).
Proof.
  intros H HM. unfold projectToRotationGroup. destruct (H M HM) as [[A B] [C D]]. destruct (svd M) as [U V]. simpl in *.
  match goal with |- context [if ?b then _ else _] => destruct b end; split; simpl; auto.
Qed.

Lemma rotation_average_total svd dt d RVec kappa : RVec <> [] -> Forall (sized d d) RVec ->
  (forall M, sized d d M -> sized d d (fst (svd M)) /\ sized d d (snd (svd M))) ->
  exists Q, singleRotationAveraging svd dt RVec kappa = Ok Q /\ sized d d Q.
Proof.
  intros N HS Hsv. unfold singleRotationAveraging. destruct RVec as [|R0 rl]; [congruence|].
  assert (D0 : mrows R0 = d) by (apply Forall_inv in HS; apply HS). rewrite D0.
  rewrite (proj2 (forallb_Forall _ (sized d d) _ (fun M => has_size_sized M d d)) HS). cbn [require].
  eexists. split; [reflexivity|]. apply rotation_projection_sized; auto.
  destruct (wsum_fold (combine (or_default (length (R0 :: rl)) kappa (ones (length (R0 :: rl)))) (R0 :: rl)) (mzero d d)) as [[A B] _].
  split; [rewrite A|rewrite B]; reflexivity.
Qed.

Lemma translation_average_total d tVec tau : tVec <> [] -> Forall (sized d 1) tVec ->
  exists t, singleTranslationAveraging tVec tau = Ok t /\ sized d 1 t.
Proof.
  intros N HS. unfold singleTranslationAveraging. destruct tVec as [|t0 tl]; [congruence|].
  assert (D0 : mrows t0 = d) by (apply Forall_inv in HS; apply HS). rewrite D0.
  rewrite (proj2 (forallb_Forall _ (sized d 1) _ (fun M => has_size_sized M d 1)) HS). cbn [require].
  eexists. split; [reflexivity|]. split; auto.
Qed.

Lemma pose_average_total svd dt d RVec tVec kappa tau : RVec <> [] -> length tVec = length RVec -> Forall (sized d d) RVec -> Forall (sized d 1) tVec ->
  (forall M, sized d d M -> sized d d (fst (svd M)) /\ sized d d (snd (svd M))) ->
  exists Q t, singlePoseAveraging svd dt RVec tVec kappa tau = Ok (Q, t) /\ sized d d Q /\ sized d 1 t.
Proof.
  intros N L HR HT Hsv. assert (N' : tVec <> []). { intros ->. destruct RVec; [congruence|discriminate]. }
  destruct (rotation_average_total svd dt d RVec kappa N HR Hsv) as (Q & EQ & SQ).
  destruct (translation_average_total d tVec tau N' HT) as (t & Et & St).
  exists Q, t. split; auto. unfold singlePoseAveraging. rewrite Et, EQ.
  destruct RVec as [|R0 rl]; [congruence|]. destruct tVec as [|t0 tl]; [congruence|].
  rewrite L, Nat.eqb_refl. cbn [check].
  assert (D0 : mrows R0 = d) by (apply Forall_inv in HR; apply HR).
  assert (D1 : mrows t0 = d) by (apply Forall_inv in HT; apply HT).
  rewrite D0, D1, Nat.eqb_refl. reflexivity.
Qed.

Lemma fro_dist (A B : Mx R) r c : sized r c A -> mfro2 (msub A B) = dist2 r c A B.
Proof. intros [A1 A2]. unfold mfro2, dist2, msub, sq. cbn [mrows mcols Num.mat]. rewrite A1, A2. reflexivity. Qed.

Lemma rot_residuals_spec d kappa RVec Q rs : length kappa = length RVec -> Forall (sized d d) RVec -> RVec <> [] -> Forall (fun y => 0 < y) kappa ->
  rot_residuals kappa RVec Q = Ok rs ->
  sized d d Q /\ length rs = length RVec /\ Forall (fun r => 0 <= r) rs /\
  forall i, (i < length RVec)%nat -> nth i rs 0 = rot_residual d kappa RVec Q i.
Proof.
  intros L HS N HK E. unfold rot_residuals in E. apply require_Ok in E. destruct E as [F E]. injection E as <-.
  assert (SQ : sized d d Q).
  { destruct RVec as [|R0 rl]; [congruence|]. simpl in F. apply andb_true_iff in F. destruct F as [F _].
    apply same_size_sized in F. apply Forall_inv in HS. unfold sized in *. destruct F, HS. split; congruence. }
  split; auto. split; [rewrite map_length, combine_length; lia|]. split.
  - apply Forall_forall. intros x Hx. apply in_map_iff in Hx. destruct Hx as ((k & M) & <- & Hi). cbn [fst snd].
    rewrite (fro_dist _ _ d d SQ). apply in_combine_l in Hi. rewrite Forall_forall in HK. specialize (HK k Hi).
    pose proof (dist2_nonneg d d Q M). numr. nra.
  - intros i Hi. rewrite (map_combine_nth _ kappa RVec 0 (mzero d d)) by lia. cbn [fst snd].
    rewrite (fro_dist _ _ d d SQ). reflexivity.
Qed.

Lemma combine_length_eq {A B} (a : list A) (b : list B) : length a = length b -> length (combine a b) = length a.
Proof. rewrite combine_length. lia. Qed.

Lemma pose_residuals_spec d kappa tau RVec tVec Q t rs :
  length kappa = length RVec -> length tau = length RVec -> length tVec = length RVec -> Forall (sized d d) RVec -> Forall (sized d 1) tVec -> RVec <> [] ->
  Forall (fun y => 0 < y) kappa -> Forall (fun y => 0 < y) tau ->
  pose_residuals kappa tau RVec tVec (Q, t) = Ok rs ->
  sized d d Q /\ sized d 1 t /\ length rs = length RVec /\ Forall (fun r => 0 <= r) rs /\
  forall i, (i < length RVec)%nat -> nth i rs 0 = pose_residual d kappa tau RVec tVec Q t i.
Proof.
  intros L1 L2 L3 HS HT N HK HA E. unfold pose_residuals in E. apply require_Ok in E. destruct E as [F E]. injection E as <-.
  apply andb_true_iff in F. destruct F as [F1 F2]. cbn [fst snd] in F1, F2.
  assert (SQ : sized d d Q).
  { destruct RVec as [|R0 rl]; [congruence|]. simpl in F1. apply andb_true_iff in F1. destruct F1 as [F _].
    apply same_size_sized in F. apply Forall_inv in HS. unfold sized in *. destruct F, HS. split; congruence. }
  assert (ST : sized d 1 t).
  { destruct tVec as [|R0 rl]; [destruct RVec; [congruence|discriminate]|]. simpl in F2. apply andb_true_iff in F2. destruct F2 as [F _].
    apply same_size_sized in F. apply Forall_inv in HT. unfold sized in *. destruct F, HT. split; congruence. }
  split; auto. split; auto. split; [rewrite map_length, !combine_length; lia|]. split.
  - apply Forall_forall. intros x Hx. apply in_map_iff in Hx. destruct Hx as (((k & M) & (k' & M')) & <- & Hi). cbn [fst snd].
    rewrite (fro_dist _ _ d d SQ), (fro_dist _ _ d 1 ST).
    pose proof (in_combine_l _ _ _ _ Hi) as Ha. pose proof (in_combine_r _ _ _ _ Hi) as Hb.
    apply in_combine_l in Ha, Hb. rewrite Forall_forall in HK, HA. specialize (HK k Ha). specialize (HA k' Hb).
    pose proof (dist2_nonneg d d Q M). pose proof (dist2_nonneg d 1 t M'). numr. nra.
  - intros i Hi.
    rewrite (map_combine_nth _ (combine kappa RVec) (combine tau tVec) (0, mzero d d) (0, mzero d 1)) by (rewrite !combine_length; lia).
    cbn [fst snd]. rewrite !combine_nth by lia. cbn [fst snd].
    rewrite (fro_dist _ _ d d SQ), (fro_dist _ _ d 1 ST). reflexivity.
Qed.

Theorem robust_rotation : forall svd determinant mudiv d RVec kappa thr,
  RVec <> [] -> Forall (sized d d) RVec -> Forall (fun y => 0 < y) kappa -> 0 < thr ->
  svd_sized svd d -> div_ok mudiv ->
  let n := length RVec in let k := in_force n kappa 1 in
  exists Q inl calls, robustRotation_calls svd determinant mudiv RVec kappa thr = Ok (Q, inl, calls) /\
    StronglySorted lt inl /\ (forall i, In i inl -> (i < n)%nat /\ rot_residual d k RVec Q i < thr * thr) /\
    (exists Q0, singleRotationAveraging svd determinant RVec k = Ok Q0 /\
       ((forall i, (i < n)%nat -> rot_residual d k RVec Q0 i < thr * thr / 2) -> Q = Q0 /\ inl = seq 0 n)) /\
    Forall (fun ws => length ws = n /\ 0 < rsumL (fun x => x) (cwise k ws)) calls /\ (length calls <= 1001)%nat.
Proof.
  intros svd dt mudiv d RVec kappa thr N HS HK Ht Hsv Hdiv n k.
  assert (Hn : (0 < n)%nat) by (destruct RVec; [congruence|simpl in n; unfold n; lia]).
  assert (Lk : length k = n) by apply in_force_length.
  assert (Pk : Forall (fun y => 0 < y) k) by (apply in_force_pos; auto; lra).
  unfold robustRotation_calls. fold n. rewrite (proj2 (Nat.ltb_lt _ _) Hn). cbn [check].
  rewrite (check_rotations d RVec HS). cbn [bind]. unfold ones at 1. change (@n1 R NumR) with 1. rewrite or_default_in_force. fold k.
  set (average := fun ws => singleRotationAveraging svd dt RVec (cwise k ws)).
  assert (Tot : forall ws, length ws = n -> exists e rs, average ws = Ok e /\ rot_residuals k RVec e = Ok rs /\ length rs = n).
  { intros ws Lw. destruct (rotation_average_total svd dt d RVec (cwise k ws) N HS Hsv) as (Q & EQ & SQ).
    exists Q. unfold rot_residuals.
    assert (F : forallb (fun Ri => same_size Q Ri) RVec = true).
    { apply forallb_forall. intros M HM. apply same_size_sized. destruct SQ as [-> ->]. rewrite Forall_forall in HS. apply HS; auto. }
    rewrite F. eexists. split; [exact EQ|]. split; [reflexivity|]. rewrite map_length, combine_length. fold n. lia. }
  destruct (gnc_average_total average (rot_residuals k RVec) n Tot mudiv thr 1000) as [[[Q inl'] calls] EG].
  exists Q, inl', calls. split; [exact EG|].
  assert (Rn : forall e rs, rot_residuals k RVec e = Ok rs -> length rs = n /\ Forall (fun r => 0 <= r) rs).
  { intros e rs Er. destruct (rot_residuals_spec d k RVec e rs Lk HS N Pk Er) as (_ & A & B & _). auto. }
  destruct (gnc_average_spec average (rot_residuals k RVec) n Rn mudiv Hdiv thr 1000%N Q inl' calls Hn Ht ltac:(lia) EG)
    as (e0 & rs0 & rs & A0 & R0 & R1 & _ & So & In1 & Sm & Ca & Le).
  destruct (rot_residuals_spec d k RVec e0 rs0 Lk HS N Pk R0) as (_ & _ & _ & V0).
  destruct (rot_residuals_spec d k RVec Q rs Lk HS N Pk R1) as (_ & _ & _ & V1).
  split; auto. split; [intros i Hi; destruct (In1 i Hi) as [G1 G2]; split; auto; rewrite <- V1; auto|].
  split.
  { exists e0. split; [unfold average in A0; rewrite cwise_ones in A0 by auto; exact A0|].
    intros HS'. apply Sm. intros i Hi. rewrite V0 by auto. apply HS'; auto. }
  split; [|change (N.to_nat 1000 + 1)%nat with 1001%nat in Le; exact Le].
  eapply Forall_impl; [|exact Ca]. intros ws Gw. split; [apply Gw|]. apply (total_weight_pos n); auto.
Qed.

Theorem robust_pose : forall svd determinant mudiv d RVec tVec kappa tau thr,
  RVec <> [] -> length tVec = length RVec -> Forall (sized d d) RVec -> Forall (sized d 1) tVec ->
  Forall (fun y => 0 < y) kappa -> Forall (fun y => 0 < y) tau -> 0 < thr ->
  svd_sized svd d -> div_ok mudiv ->
  let n := length RVec in let k := in_force n kappa 10000 in let s := in_force n tau 100 in
  exists Q t inl calls, robustPose_calls svd determinant mudiv RVec tVec kappa tau thr = Ok (Q, t, inl, calls) /\
    StronglySorted lt inl /\ (forall i, In i inl -> (i < n)%nat /\ pose_residual d k s RVec tVec Q t i < thr * thr) /\
    (exists Q0 t0, singlePoseAveraging svd determinant RVec tVec k s = Ok (Q0, t0) /\
       ((forall i, (i < n)%nat -> pose_residual d k s RVec tVec Q0 t0 i < thr * thr / 2) -> Q = Q0 /\ t = t0 /\ inl = seq 0 n)) /\
    Forall (fun ws => length ws = n /\ 0 < rsumL (fun x => x) (cwise k ws) /\ 0 < rsumL (fun x => x) (cwise s ws)) calls /\
    (N.of_nat (length calls) <= 10001)%N.
Proof.
  intros svd dt mudiv d RVec tVec kappa tau thr N LT HS HT HK HA Ht Hsv Hdiv n k s.
  assert (Hn : (0 < n)%nat) by (destruct RVec; [congruence|simpl in n; unfold n; lia]).
  assert (Lk : length k = n) by apply in_force_length.
  assert (Pk : Forall (fun y => 0 < y) k) by (apply in_force_pos; auto; lra).
  assert (Ls : length s = n) by apply in_force_length.
  assert (Ps : Forall (fun y => 0 < y) s) by (apply in_force_pos; auto; lra).
  unfold robustPose_calls. fold n. rewrite (proj2 (Nat.ltb_lt _ _) Hn). cbn [check].
  rewrite LT. fold n. rewrite Nat.eqb_refl. cbn [check].
  rewrite (check_rotations d RVec HS). cbn [bind].
  rewrite !or_default_in_force. numr. rewrite !Rmult_1_r. fold k s.
  set (average := fun ws => singlePoseAveraging svd dt RVec tVec (cwise k ws) (cwise s ws)).
  assert (Tot : forall ws, length ws = n -> exists e rs, average ws = Ok e /\ pose_residuals k s RVec tVec e = Ok rs /\ length rs = n).
  { intros ws Lw. destruct (pose_average_total svd dt d RVec tVec (cwise k ws) (cwise s ws) N LT HS HT Hsv) as (Q & t & EQ & SQ & St).
    exists (Q, t). unfold pose_residuals.
    assert (F : forallb (fun Ri => same_size (fst (Q, t)) Ri) RVec && forallb (fun ti => same_size (snd (Q, t)) ti) tVec = true).
    { apply andb_true_iff. split; apply forallb_forall; intros M HM; apply same_size_sized; cbn [fst snd].
      - destruct SQ as [-> ->]. rewrite Forall_forall in HS. apply HS; auto.
      - destruct St as [-> ->]. rewrite Forall_forall in HT. apply HT; auto. }
    rewrite F. eexists. split; [exact EQ|]. split; [reflexivity|]. rewrite map_length, !combine_length. fold n. rewrite LT. fold n. lia. }
  destruct (gnc_average_total average (pose_residuals k s RVec tVec) n Tot mudiv thr 10000) as [[[[Q t] inl'] calls] EG].
  exists Q, t, inl', calls. split; [exact EG|].
  assert (Rn : forall e rs, pose_residuals k s RVec tVec e = Ok rs -> length rs = n /\ Forall (fun r => 0 <= r) rs).
  { intros [eQ et] rs Er. destruct (pose_residuals_spec d k s RVec tVec eQ et rs Lk Ls LT HS HT N Pk Ps Er) as (_ & _ & A & B & _). auto. }
  destruct (gnc_average_spec average (pose_residuals k s RVec tVec) n Rn mudiv Hdiv thr 10000%N (Q, t) inl' calls Hn Ht ltac:(lia) EG)
    as ([Q0 t0] & rs0 & rs & A0 & R0 & R1 & _ & So & In1 & Sm & Ca & Le).
  destruct (pose_residuals_spec d k s RVec tVec Q0 t0 rs0 Lk Ls LT HS HT N Pk Ps R0) as (_ & _ & _ & _ & V0).
  destruct (pose_residuals_spec d k s RVec tVec Q t rs Lk Ls LT HS HT N Pk Ps R1) as (_ & _ & _ & _ & V1).
  split; auto. split; [intros i Hi; destruct (In1 i Hi) as [G1 G2]; split; auto; rewrite <- V1; auto|].
  split.
  { exists Q0, t0. split; [unfold average in A0; rewrite !cwise_ones in A0 by auto; exact A0|].
    intros HS'. destruct Sm as [Sm1 Sm2]. { intros i Hi. rewrite V0 by auto. apply HS'; auto. }
    injection Sm1 as -> ->. auto. }
  split.
  - eapply Forall_impl; [|exact Ca]. intros ws Gw. split; [apply Gw|]. split; apply (total_weight_pos n); auto.
  - lia.
Qed.

(** The two claims separately. *)
Theorem robust_rotation_inliers : forall svd determinant mudiv d RVec kappa thr,
  RVec <> [] -> Forall (sized d d) RVec -> Forall (fun y => 0 < y) kappa -> 0 < thr ->
  svd_sized svd d -> div_ok mudiv ->
  let n := length RVec in let k := in_force n kappa 1 in
  exists Q inl, robustSingleRotationAveraging svd determinant mudiv RVec kappa thr = Ok (Q, inl) /\
    StronglySorted lt inl /\ (forall i, In i inl -> (i < n)%nat /\ rot_residual d k RVec Q i < thr * thr) /\
    (exists Q0, singleRotationAveraging svd determinant RVec k = Ok Q0 /\
       ((forall i, (i < n)%nat -> rot_residual d k RVec Q0 i < thr * thr / 2) -> Q = Q0 /\ inl = seq 0 n)).
Proof.
  intros svd dt mudiv d RVec kappa thr A B C D F G n k.
  destruct (robust_rotation svd dt mudiv d RVec kappa thr A B C D F G) as (Q & il & calls & E & H1 & H2 & H3 & _).
  exists Q, il. unfold robustSingleRotationAveraging. rewrite E. auto.
Qed.

Theorem robust_rotation_weights : forall svd determinant mudiv d RVec kappa thr,
  RVec <> [] -> Forall (sized d d) RVec -> Forall (fun y => 0 < y) kappa -> 0 < thr ->
  svd_sized svd d -> div_ok mudiv ->
  let n := length RVec in let k := in_force n kappa 1 in
  exists Q inl calls, robustRotation_calls svd determinant mudiv RVec kappa thr = Ok (Q, inl, calls) /\
    Forall (fun ws => length ws = n /\ 0 < rsumL (fun x => x) (cwise k ws)) calls /\ (length calls <= 1001)%nat.
Proof.
  intros svd dt mudiv d RVec kappa thr A B C D F G n k.
  destruct (robust_rotation svd dt mudiv d RVec kappa thr A B C D F G) as (Q & il & calls & E & _ & _ & _ & H).
  exists Q, il, calls. auto.
Qed.

Theorem robust_pose_inliers : forall svd determinant mudiv d RVec tVec kappa tau thr,
  RVec <> [] -> length tVec = length RVec -> Forall (sized d d) RVec -> Forall (sized d 1) tVec ->
  Forall (fun y => 0 < y) kappa -> Forall (fun y => 0 < y) tau -> 0 < thr ->
  svd_sized svd d -> div_ok mudiv ->
  let n := length RVec in let k := in_force n kappa 10000 in let s := in_force n tau 100 in
  exists Q t inl, robustSinglePoseAveraging svd determinant mudiv RVec tVec kappa tau thr = Ok (Q, t, inl) /\
    StronglySorted lt inl /\ (forall i, In i inl -> (i < n)%nat /\ pose_residual d k s RVec tVec Q t i < thr * thr) /\
    (exists Q0 t0, singlePoseAveraging svd determinant RVec tVec k s = Ok (Q0, t0) /\
       ((forall i, (i < n)%nat -> pose_residual d k s RVec tVec Q0 t0 i < thr * thr / 2) -> Q = Q0 /\ t = t0 /\ inl = seq 0 n)).
Proof.
  intros svd dt mudiv d RVec tVec kappa tau thr A B C D F G I J K n k s.
  destruct (robust_pose svd dt mudiv d RVec tVec kappa tau thr A B C D F G I J K) as (Q & t & il & calls & E & H1 & H2 & H3 & _).
  exists Q, t, il. unfold robustSinglePoseAveraging. rewrite E. auto.
Qed.

Theorem robust_pose_weights : forall svd determinant mudiv d RVec tVec kappa tau thr,
  RVec <> [] -> length tVec = length RVec -> Forall (sized d d) RVec -> Forall (sized d 1) tVec ->
  Forall (fun y => 0 < y) kappa -> Forall (fun y => 0 < y) tau -> 0 < thr ->
  svd_sized svd d -> div_ok mudiv ->
  let n := length RVec in let k := in_force n kappa 10000 in let s := in_force n tau 100 in
  exists Q t inl calls, robustPose_calls svd determinant mudiv RVec tVec kappa tau thr = Ok (Q, t, inl, calls) /\
    Forall (fun ws => length ws = n /\ 0 < rsumL (fun x => x) (cwise k ws) /\ 0 < rsumL (fun x => x) (cwise s ws)) calls /\
    (N.of_nat (length calls) <= 10001)%N.
Proof.
  intros svd dt mudiv d RVec tVec kappa tau thr A B C D F G I J K n k s.
  destruct (robust_pose svd dt mudiv d RVec tVec kappa tau thr A B C D F G I J K) as (Q & t & il & calls & E & _ & _ & _ & H).
  exists Q, t, il, calls. auto.
Qed.
