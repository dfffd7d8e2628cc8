(** Concrete cases for the robust cost theorems. *)
From Coq Require Import List NArith ZArith Bool Lia Reals Lra Psatz Floats.
From Verif Require Import Base Num RSum NumFloat ModelRobust SpecRobust ProofsRobust.
Import ListNotations.
Local Open Scope R_scope.

Lemma ex_good t : good_params (default_robust t).
Proof.
  unfold good_params, default_robust, nlit; cbn [GNCBarc GNCMuStep GNCInitMu HuberThreshold TLSThreshold]. xr.
  rewrite !Req_neq_dec by lra. repeat split; eexists; (split; [reflexivity|lra]).
Qed.

Example ex_unit : good_params (default_robust GNC_TLS) /\ costType (@default_robust XR _ GNC_TLS) <> L1 /\
  residual (Fin 7) /\ residual PInf.
Proof.
  split; [apply ex_good|]. split; [discriminate|]. split; [right; exists 7; split; auto; lra|left; reflexivity].
Qed.

Example ex_mono : good_params (default_robust L1) /\ residual (Fin 0) /\ residual (Fin 7) /\ xleb (Fin 0) (Fin 7) = true.
Proof.
  split; [apply ex_good|]. split; [right; exists 0; split; auto; lra|].
  split; [right; exists 7; split; auto; lra|]. apply xleb_fin. lra.
Qed.

(** mu = 1, barc = 5: undecided between r^2 = 12.5 and r^2 = 50; r = 5 is undecided. *)
Definition exR_gnc : RobustCost R := mkRobustCost (mkRobustParams GNC_TLS 20 5 (14/10) 1 3 10) 0 1.
Example ex_pieces : costType (rc_params exR_gnc) = GNC_TLS /\ 0 < rc_mu exR_gnc /\ 0 < GNCBarc (rc_params exR_gnc) /\
  0 < weight exR_gnc 5 < 1 /\ weight exR_gnc 3 = 1 /\ weight exR_gnc 8 = 0.
Proof.
  split; [reflexivity|]. split; [simpl; lra|]. split; [simpl; lra|].
  destruct (gnc_pieces exR_gnc 5) as (_ & _ & C & _); [reflexivity|simpl; lra|simpl; lra|lra|].
  destruct (gnc_pieces exR_gnc 3) as (A & _); [reflexivity|simpl; lra|simpl; lra|lra|].
  destruct (gnc_pieces exR_gnc 8) as (_ & B & _); [reflexivity|simpl; lra|simpl; lra|lra|].
  split; [apply C; simpl; lra|]. split; [apply A; simpl; lra|apply B; simpl; lra].
Qed.

Example ex_schedule : let p := default_robust (S := R) GNC_TLS in
  costType p = GNC_TLS /\ 0 < GNCInitMu p /\ 1 < GNCMuStep p /\ (GNCMaxNumIters p = 20)%N /\
  rc_mu (rc_updates 2 (rc_new p)) = 196 / 1000000.
Proof.
  intros p. destruct (schedule p 2) as (E & _); [reflexivity|reflexivity|].
  split; auto. split; [unfold p, default_robust, nlit; simpl; lra|]. split; [unfold p, default_robust, nlit; simpl; lra|]. split; auto.
  rewrite E. unfold p, default_robust, nlit; cbn [costType GNCInitMu GNCMuStep GNCMaxNumIters]; numr.
  change (Nat.min 2 (N.to_nat 20)) with 2%nat. simpl. lra.
Qed.

(** A descent step under Huber weights: residuals 4 -> 2 and 1 -> 3/2. *)
Definition ex_res : list (R * R) := [(4, 2); (1, 3/2)].
Definition ex_huber : RobustParams R := mkRobustParams Huber 20 5 (14/10) (1/10000) 3 10.
Example ex_irls : pos_params ex_huber 1 /\
  (forall a, In a ex_res -> 0 <= fst a /\ 0 <= snd a /\ (costType ex_huber = L1 -> 0 < fst a)) /\
  nsumL (fun a => weight (mkRobustCost ex_huber 0 1) (fst a) * (snd a * snd a)) ex_res <
  nsumL (fun a => weight (mkRobustCost ex_huber 0 1) (fst a) * (fst a * fst a)) ex_res.
Proof.
  split; [unfold pos_params; simpl; lra|]. split.
  - intros a [<-|[<-|[]]]; simpl; repeat split; try lra; intros; discriminate.
  - unfold ex_res. rewrite !rsumL_cons, !rsumL_nil. unfold weight; simpl.
    destruct (Rlt_dec 4 3); [lra|]. destruct (Rlt_dec 1 3); lra.
Qed.

(** With binary64 rounding the GNC weight can exceed 1. *)
Definition exF_gnc : RobustCost float :=
  mkRobustCost (mkRobustParams GNC_TLS 20 5%float 0x1.6666666666666p+0%float 0x1.a36e2eb1c432dp-14%float 3%float 10%float) 0
    0x1.94c9b0e38d2d7p+1%float.
Theorem float_above_one : exists (c : RobustCost float) (r : float),
  costType (rc_params c) = GNC_TLS /\ PrimFloat.ltb 0 (rc_mu c) = true /\ PrimFloat.ltb 0 (GNCBarc (rc_params c)) = true /\
  PrimFloat.leb 0 r = true /\ PrimFloat.ltb 1 (weight c r) = true.
Proof. exists exF_gnc, 0x1.16eca78f8e74cp+2%float. vm_compute. auto. Qed.
