(** What robust averaging reports when it converges (C23). *)
From Coq Require Import List Lia Lra Psatz Reals NArith Sorted Bool.
From Verif Require Import Base Num RSum Det ModelTypes ModelRobust ModelPoses ModelProblem ModelSolver SpecCost SpecRobust SpecSolver MatR
  ProofsPoseGraph ProofsRobust ProofsSolver ProofsGnc.
Import ListNotations.
Local Open Scope R_scope.

(** A weight below 1e-8 means a residual at or above the threshold, unless mu is
    below 2e-16. *)
Lemma gw_outlier mu c r : 2 / 10000000000000000 <= mu -> 0 < c -> 0 <= r -> gw mu c r < w_tol -> c * c <= r * r.
Proof.
  rewrite w_tol_R. intros Hmu Hc Hr Hw. assert (Hm : 0 < mu) by lra. apply Rnot_lt_le. intros L.
  destruct (gw_cases mu c Hm r Hr) as [[A E]|[[A [B E]]|[A [B [E C]]]]].
  - unfold gup in A. assert (c * c <= (mu + 1) / mu * (c * c)); [|lra].
    apply Rmult_le_reg_r with mu; [lra|]. replace ((mu + 1) / mu * (c * c) * mu) with ((mu + 1) * (c * c)) by (field; lra). nra.
  - rewrite E in Hw. lra.
  - rewrite E in Hw. destruct (gmid_sq mu c Hm r A) as [Q P].
    set (x := gmid mu c r + mu) in *. assert (X : 0 <= x < mu + / 100000000) by (unfold x; lra).
    assert (XX : x * x < mu * (mu + 1)).
    { apply Rle_lt_trans with ((mu + / 100000000) * (mu + / 100000000)); [|lra]. apply Rmult_le_compat; lra. }
    assert (R2 : 0 < r * r) by (apply Rmult_lt_0_compat; auto).
    assert (x * x * (r * r) < mu * (mu + 1) * (r * r)) by (apply Rmult_lt_compat_r; auto).
    assert (mu * (mu + 1) * (r * r) < mu * (mu + 1) * (c * c)) by (apply Rmult_lt_compat_l; nra). nra.
Qed.

Section Gnc.
Context {E : Type} (average : list R -> res E) (residuals : E -> res (list R)) (n : nat).
Hypothesis res_nonneg : forall e rs, residuals e = Ok rs -> length rs = n /\ Forall (fun r => 0 <= r) rs.

Definition grows (cost : RobustCost R) : Prop := 1 <= GNCMuStep (rc_params cost).
Lemma update_grows c cost : gnc_cost c cost -> grows cost -> rc_mu cost <= rc_mu (rc_update cost) /\ grows (rc_update cost).
Proof.
  intros (A & B & C & D) G. unfold rc_update. destruct (negb _); [split; [lra|exact G]|].
  destruct (N.ltb _ _); (split; [|exact G]); cbn [rc_mu]; [lra|]. unfold grows in G. numr. nra.
Qed.

Lemma gnc_loop_end c : forall fuel est ws cost e w calls,
  gnc_cost c cost -> grows cost -> fuel <> O -> gnc_loop average residuals fuel est ws cost = Ok (e, w, calls) ->
  exists rs mu, residuals e = Ok rs /\ rc_mu cost <= mu /\ w = map (fun r => gw mu c (sqrt r)) rs /\
    calls <> [] /\ average (last calls []) = Ok e /\ (length calls = fuel \/ forallb converged_weight w = true).
Proof.
  induction fuel as [|fuel IH]; intros est ws cost e w calls Gc Gr NZ HL; [congruence|].
  cbn [gnc_loop] in HL.
  destruct (average ws) as [est'| |] eqn:EA; try discriminate. cbn [bind] in HL.
  destruct (residuals est') as [rs| |] eqn:ER; try discriminate. cbn [bind] in HL.
  set (ws' := map (fun rSq => weight cost (nsqrt rSq)) rs) in HL.
  assert (Ew : ws' = map (fun r => gw (rc_mu cost) c (sqrt r)) rs).
  { unfold ws'. apply map_ext. intros r. rewrite weight_gnc_R by apply Gc. destruct Gc as (_ & -> & _). reflexivity. }
  destruct (forallb converged_weight ws') eqn:EC.
  - injection HL as <- <- <-. exists rs, (rc_mu cost). split; [exact ER|]. split; [lra|]. split; [exact Ew|].
    split; [discriminate|]. split; [exact EA|right; exact EC].
  - destruct (gnc_loop average residuals fuel est' ws' (rc_update cost)) as [[[e' w'] c']| |] eqn:EL; try discriminate.
    cbn [bind] in HL. injection HL as <- <- <-. destruct (update_grows c cost Gc Gr) as [U1 U2].
    destruct fuel as [|fuel].
    + cbn in EL. injection EL as <- <- <-. exists rs, (rc_mu cost). split; [exact ER|]. split; [lra|]. split; [exact Ew|].
      split; [discriminate|]. split; [exact EA|left; reflexivity].
    + destruct (IH est' ws' (rc_update cost) e' w' c' (gnc_cost_update c cost Gc) U2 ltac:(lia) EL) as (rs' & mu & A & B & C & D & F & G).
      exists rs', mu. split; [exact A|]. split; [lra|]. split; [exact C|]. split; [discriminate|]. split.
      * destruct c'; [congruence|exact F].
      * destruct G as [G|G]; [left; cbn [length]; lia|right; exact G].
Qed.

Variable mudiv : R -> R -> R.
Hypothesis mudiv_nz : div_ok mudiv.
Hypothesis mudiv_z : div_zero_big mudiv.

Theorem gnc_average_end c maxIters e inl calls : (0 < n)%nat -> 0 < c -> (0 < maxIters)%N ->
  gnc_average mudiv average residuals n c maxIters = Ok (e, inl, calls) ->
  exists e0 rs0 rs, average (ones n) = Ok e0 /\ residuals e0 = Ok rs0 /\ residuals e = Ok rs /\
    average (last calls []) = Ok e /\
    ((forall i, (i < n)%nat -> nth i rs0 0 <= 1000000000000000 * (c * c)) ->
      (N.of_nat (length calls) = maxIters + 1)%N \/ forall i, In i inl <-> (i < n)%nat /\ nth i rs 0 < c * c).
Proof.
  intros Hn Hc Hm HG. destruct (gnc_average_spec average residuals n res_nonneg mudiv mudiv_nz c maxIters e inl calls Hn Hc Hm HG)
    as (e0 & rs0 & rs & A0 & R0 & R1 & _ & _ & I1 & _). exists e0, rs0, rs. split; [exact A0|]. split; [exact R0|]. split; [exact R1|].
  unfold gnc_average in HG. rewrite A0 in HG. cbn [bind] in HG. rewrite R0 in HG. cbn [bind] in HG.
  destruct (res_nonneg e0 rs0 R0) as [L0 P0].
  assert (NE : rs0 <> []) by (intros ->; simpl in L0; lia).
  change (@nltb R NumR) with (fun a b : R => if Rlt_dec a b then true else false) in HG at 1.
  set (m := maxCoeff rs0) in HG. set (mu0 := nmin _ _) in HG. cbv beta in HG. change (@n0 R NumR) with 0 in HG.
  destruct (Rlt_dec 0 mu0) as [L|L].
  - match type of HG with bind ?X _ = _ => destruct X as [[[e1 w1] c1]| |] eqn:EL; try discriminate end.
    cbn [bind] in HG. injection HG as He Hi Hcl. subst e1 calls.
    match type of EL with gnc_loop _ _ _ _ _ ?C = _ => set (cost := C) in EL end.
    assert (Gc : gnc_cost c cost).
    { unfold cost, gnc_cost. rewrite params_new. cbn [costType GNCBarc GNCMuStep]. split; auto. split; auto.
      split; [unfold default_robust; cbn [GNCMuStep]; unfold nlit; numr; lra|]. unfold rc_new, rc_reset. simpl. auto. }
    assert (Gr : grows cost) by (unfold grows, cost; rewrite params_new; cbn [GNCMuStep default_robust]; unfold nlit; numr; lra).
    assert (NZ : N.to_nat maxIters <> O) by lia.
    destruct (gnc_loop_end c _ _ _ _ _ _ _ Gc Gr NZ EL) as (rs' & mu & R1' & Hmu & Ew & NC & La & Fin).
    rewrite R1 in R1'. injection R1' as <-. split; [destruct c1; [congruence|exact La]|]. intros HB.
    destruct Fin as [Fin|Fin]; [left; cbn [length]; lia|right].
    assert (M0 : 2 / 10000000000000000 <= mu).
    { apply Rle_trans with (rc_mu cost); [|exact Hmu]. change (rc_mu cost) with mu0.
      assert (Im := maxCoeff_in rs0 NE). fold m in Im. apply (In_nth _ _ 0) in Im. destruct Im as (i & Hi' & Em). specialize (HB i ltac:(lia)). rewrite Em in HB.
      revert L. unfold mu0. unfold nmin, nlit. numr. change (IZR 2) with 2.
      destruct (Rlt_dec _ _) as [Q|Q]; [lra|]. intros L. destruct (Req_dec (2 * m - c * c) 0) as [Z|Z].
      - rewrite Z in Q |- *. assert (0 < c * c) by nra. pose proof (mudiv_z (c * c) H). lra.
      - rewrite (mudiv_nz _ _ Z) in L |- *. assert (P : 0 < 2 * m - c * c).
        { apply Rnot_le_lt. intros G. assert (c * c / (2 * m - c * c) <= 0); [|lra].
          unfold Rdiv. assert (/ (2 * m - c * c) < 0) by (apply Rinv_lt_0_compat; lra). nra. }
        apply Rmult_le_reg_r with (2 * m - c * c); [lra|]. unfold Rdiv at 2. rewrite Rmult_assoc, Rinv_l by lra. nra. }
    destruct (res_nonneg e rs R1) as [Lr Pr]. intros i. split; [apply I1|]. intros [Hi' Ri].
    rewrite <- Hi. apply filter_In. split; [apply in_seq; lia|].
    rewrite forallb_forall in Fin. specialize (Fin (nth i w1 0)).
    assert (Lw : length w1 = n) by (rewrite Ew, map_length; exact Lr).
    specialize (Fin (nth_In w1 0 (eq_ind_r (fun k => (i < k)%nat) Hi' Lw))).
    unfold converged_weight in Fin. apply orb_true_iff in Fin. destruct Fin as [F|F]; [|exact F]. exfalso.
    numr_in F. destruct (Rlt_dec _ _) as [F'|]; [|discriminate].
    rewrite Ew, (nth_indep _ 0 (gw mu c (sqrt 0))), (map_nth (fun r => gw mu c (sqrt r))) in F' by (rewrite map_length; lia).
    assert (N0 : 0 <= nth i rs 0). { rewrite Forall_forall in Pr. apply Pr, nth_In. lia. }
    pose proof (gw_outlier mu c _ M0 Hc (sqrt_pos _) F') as G. rewrite sqrt_sqrt in G by auto. lra.
  - cbn [bind] in HG. injection HG as He Hi Hcl. subst e calls. split; [exact A0|]. intros _. right.
    intros i. split; [apply I1|]. intros [Hi' _]. rewrite <- Hi. apply filter_In. split; [apply in_seq; lia|].
    rewrite (nth_ones n i) by lia. numr. destruct (Rlt_dec _ _) as [|F]; auto. exfalso. apply F. lra.
Qed.
End Gnc.

(** The estimate is the average under the last weights, and unless the iteration limit was reached the
    reported inliers are exactly the candidates within the threshold. *)
Theorem robust_rotation_complete : forall svd determinant mudiv d RVec kappa thr,
  RVec <> [] -> Forall (sized d d) RVec -> Forall (fun y => 0 < y) kappa -> 0 < thr ->
  svd_sized svd d -> div_ok mudiv -> div_zero_big mudiv ->
  let n := length RVec in let k := in_force n kappa 1 in
  exists Q0 Q inl calls, singleRotationAveraging svd determinant RVec k = Ok Q0 /\
    robustRotation_calls svd determinant mudiv RVec kappa thr = Ok (Q, inl, calls) /\
    singleRotationAveraging svd determinant RVec (cwise k (last calls [])) = Ok Q /\
    ((forall i, (i < n)%nat -> rot_residual d k RVec Q0 i <= 1000000000000000 * (thr * thr)) ->
      length calls = 1001%nat \/ forall i, In i inl <-> (i < n)%nat /\ rot_residual d k RVec Q i < thr * thr).
Proof.
  intros svd dt mudiv d RVec kappa thr N HS HK Ht Hsv Hdiv Hz n k.
  destruct (robust_rotation svd dt mudiv d RVec kappa thr N HS HK Ht Hsv Hdiv) as (Q & inl & calls & EG & _ & _ & (Q0 & EQ0 & _) & _).
  exists Q0, Q, inl, calls. split; [exact EQ0|]. split; [exact EG|].
  assert (Hn : (0 < n)%nat) by (destruct RVec; [congruence|simpl in n; unfold n; lia]).
  assert (Lk : length k = n) by apply in_force_length.
  assert (Pk : Forall (fun y => 0 < y) k) by (apply in_force_pos; auto; lra).
  unfold robustRotation_calls in EG. fold n in EG. rewrite (proj2 (Nat.ltb_lt _ _) Hn) in EG. cbn [check] in EG.
  rewrite (check_rotations d RVec HS) in EG. cbn [bind] in EG. unfold ones at 1 in EG. change (@n1 R NumR) with 1 in EG. rewrite or_default_in_force in EG. fold k in EG.
  set (average := fun ws => singleRotationAveraging svd dt RVec (cwise k ws)) in EG.
  assert (Rn : forall e rs, rot_residuals k RVec e = Ok rs -> length rs = n /\ Forall (fun r => 0 <= r) rs).
  { intros e rs Er. destruct (rot_residuals_spec d k RVec e rs Lk HS N Pk Er) as (_ & A & B & _). auto. }
  destruct (gnc_average_end average (rot_residuals k RVec) n Rn mudiv Hdiv Hz thr 1000%N Q inl calls Hn Ht ltac:(lia) EG)
    as (e0 & rs0 & rs & A0 & R0 & R1 & La & Fin).
  unfold average in A0. rewrite cwise_ones in A0 by auto. fold n k in EQ0. rewrite EQ0 in A0. injection A0 as <-.
  destruct (rot_residuals_spec d k RVec Q0 rs0 Lk HS N Pk R0) as (_ & _ & _ & V0).
  destruct (rot_residuals_spec d k RVec Q rs Lk HS N Pk R1) as (_ & _ & _ & V1).
  split; [exact La|]. intros HB. destruct Fin as [Fin|Fin].
  - intros i Hi. rewrite V0 by auto. apply HB; auto.
  - left. lia.
  - right. intros i. rewrite (Fin i). split; intros [G1 G2]; (split; [exact G1|]); [rewrite <- V1|rewrite V1]; auto.
Qed.

Theorem robust_pose_complete : forall svd determinant mudiv d RVec tVec kappa tau thr,
  RVec <> [] -> length tVec = length RVec -> Forall (sized d d) RVec -> Forall (sized d 1) tVec ->
  Forall (fun y => 0 < y) kappa -> Forall (fun y => 0 < y) tau -> 0 < thr ->
  svd_sized svd d -> div_ok mudiv -> div_zero_big mudiv ->
  let n := length RVec in let k := in_force n kappa 10000 in let s := in_force n tau 100 in
  exists Q0 t0 Q t inl calls, singlePoseAveraging svd determinant RVec tVec k s = Ok (Q0, t0) /\
    robustPose_calls svd determinant mudiv RVec tVec kappa tau thr = Ok (Q, t, inl, calls) /\
    singlePoseAveraging svd determinant RVec tVec (cwise k (last calls [])) (cwise s (last calls [])) = Ok (Q, t) /\
    ((forall i, (i < n)%nat -> pose_residual d k s RVec tVec Q0 t0 i <= 1000000000000000 * (thr * thr)) ->
      N.of_nat (length calls) = 10001%N \/
      forall i, In i inl <-> (i < n)%nat /\ pose_residual d k s RVec tVec Q t i < thr * thr).
Proof.
  intros svd dt mudiv d RVec tVec kappa tau thr N LT HS HT HK HA Ht Hsv Hdiv Hz n k s.
  destruct (robust_pose svd dt mudiv d RVec tVec kappa tau thr N LT HS HT HK HA Ht Hsv Hdiv)
    as (Q & t & inl & calls & EG & _ & _ & (Q0 & t0 & EQ0 & _) & _).
  exists Q0, t0, Q, t, inl, calls. split; [exact EQ0|]. split; [exact EG|].
  assert (Hn : (0 < n)%nat) by (destruct RVec; [congruence|simpl in n; unfold n; lia]).
  assert (Lk : length k = n) by apply in_force_length.
  assert (Pk : Forall (fun y => 0 < y) k) by (apply in_force_pos; auto; lra).
  assert (Ls : length s = n) by apply in_force_length.
  assert (Ps : Forall (fun y => 0 < y) s) by (apply in_force_pos; auto; lra).
  unfold robustPose_calls in EG. fold n in EG. rewrite (proj2 (Nat.ltb_lt _ _) Hn) in EG. cbn [check] in EG.
  rewrite LT in EG. fold n in EG. rewrite Nat.eqb_refl in EG. cbn [check] in EG.
  rewrite (check_rotations d RVec HS) in EG. cbn [bind] in EG.
  rewrite !or_default_in_force in EG. numr_in EG. rewrite !Rmult_1_r in EG. fold k s in EG.
  set (average := fun ws => singlePoseAveraging svd dt RVec tVec (cwise k ws) (cwise s ws)) in EG.
  assert (Rn : forall e rs, pose_residuals k s RVec tVec e = Ok rs -> length rs = n /\ Forall (fun r => 0 <= r) rs).
  { intros [eQ et] rs Er. destruct (pose_residuals_spec d k s RVec tVec eQ et rs Lk Ls LT HS HT N Pk Ps Er) as (_ & _ & A & B & _). auto. }
  destruct (gnc_average_end average (pose_residuals k s RVec tVec) n Rn mudiv Hdiv Hz thr 10000%N (Q, t) inl calls Hn Ht ltac:(lia) EG)
    as ([Q0' t0'] & rs0 & rs & A0 & R0 & R1 & La & Fin).
  unfold average in A0. rewrite !cwise_ones in A0 by auto. fold n k s in EQ0. rewrite EQ0 in A0. injection A0 as <- <-.
  destruct (pose_residuals_spec d k s RVec tVec Q0 t0 rs0 Lk Ls LT HS HT N Pk Ps R0) as (_ & _ & _ & _ & V0).
  destruct (pose_residuals_spec d k s RVec tVec Q t rs Lk Ls LT HS HT N Pk Ps R1) as (_ & _ & _ & _ & V1).
  split; [exact La|]. intros HB. destruct Fin as [Fin|Fin].
  - intros i Hi. rewrite V0 by auto. apply HB; auto.
  - left. exact Fin.
  - right. intros i. rewrite (Fin i). split; intros [G1 G2]; (split; [exact G1|]); [rewrite <- V1|rewrite V1]; auto.
Qed.

Definition ex_mudiv (a b : R) : R := if Req_EM_T b 0 then 1 else a / b.
Lemma ex_mudiv_ok : div_ok ex_mudiv /\ div_zero_big ex_mudiv.
Proof.
  split; unfold ex_mudiv.
  - intros a b N. destruct (Req_EM_T b 0); [contradiction|reflexivity].
  - intros a _. destruct (Req_EM_T 0 0); [lra|congruence].
Qed.
