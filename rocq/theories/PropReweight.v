(** C66: the robust cost of the whole dataset along an execution of a team that updates its weights. *)
From Coq Require Import List NArith ZArith Bool Arith Reals Permutation.
From Verif Require Import Base SMap Num RSum ModelTypes ModelPoseGraph ModelRobust ModelPoses ModelSolver ModelAgent ModelExample ModelTeam SpecPoseGraph SpecPGHist SpecCost SpecRobust SpecAgent SpecRun SpecTeam SpecDescent SpecReweight
  ProofsFramesEx ProofsDescent ProofsDescent2 ProofsDescentEx ProofsReweight ProofsReweightEx.
Import ListNotations.
Local Open Scope res_scope.

(** All robots, in any order, update their weights with up-to-date caches: the team again agrees on the data, with
    the weight of every adaptive measurement that of its residual, at the next stage; no estimate has changed. *)
Theorem C66_agree : forall x r d m P M Pri c os0 t0 ks t1, treach x P m os0 t0 -> staged r d M Pri P c t0 -> (forall j, uptodate r d t0 j) -> Permutation ks (range 0 m) ->
  tm_run x t0 (reweights ks) = Ok t1 ->
  staged r d (map (fun e => if adaptive e then set_mweight (weight c (residual_at r d t0 e)) e else e) M) Pri P (rc_update c) t1 /\ forall k, est t1 k = est t0 k.
Proof. exact robust_agree. Qed.

(** If the team then works carefully, the robust cost - of the residuals, not of the stored weights - has not risen. *)
Theorem C66_round : forall x r d m P M Pri c os0 t0 ks t1 os t, treach x P m os0 t0 -> staged r d M Pri P c t0 -> (forall j, uptodate r d t0 j) -> Permutation ks (range 0 m) ->
  pos_params (rc_params c) (rc_mu c) -> (forall e, In e M -> (0 <= mkappa e)%R /\ (0 <= mtau e)%R) -> off_zero r d c M t0 ->
  tm_run x t0 (reweights ks) = Ok t1 -> Forall (top_ok P) os -> careful r d x t1 os -> tm_run x t1 os = Ok t ->
  (robust_team_cost r d c M Pri (range 0 m) t <= robust_team_cost r d c M Pri (range 0 m) t0)%R.
Proof. exact robust_round. Qed.

(** Three robots with the cost r^2/(1+r^2)/2; robot 2 moves to where its link wants it. *)
Example C66_round_case : exists os t0 t1 t, treach rx (eP 0) 3 os t0 /\ staged 3 2 d_data (fun _ => []) (eP 0) e_c t0 /\ (forall j, uptodate 3 2 t0 j) /\ tm_run rx t0 (reweights [0; 1; 2]%N) = Ok t1 /\
  careful 3 2 rx t1 e_step /\ tm_run rx t1 e_step = Ok t /\
  robust_team_cost 3 2 e_c d_data (fun _ => []) (range 0 3) t0 = (8 / 17 + 2 / 5)%R /\ robust_team_cost 3 2 e_c d_data (fun _ => []) (range 0 3) t = (8 / 17)%R.
Proof. exact e_round. Qed.
Example C66_round_case2 : pos_params (rc_params e_c) (rc_mu e_c) /\ (forall e, In e d_data -> (0 <= mkappa e)%R /\ (0 <= mtau e)%R) /\ forall t, off_zero 3 2 e_c d_data t.
Proof. exact (conj e_pos (conj e_precisions e_off)). Qed.

(** Any number of rounds, as long as the annealing does not change the cost. *)
Theorem C66_rounds : forall x r d m P M Pri c os t rs t', treach x P m os t -> staged r d M Pri P c t ->
  pos_params (rc_params c) (rc_mu c) -> (forall e, In e M -> (0 <= mkappa e)%R /\ (0 <= mtau e)%R) -> (forall n, (n < length rs)%nat -> rc_mu (rc_updates n c) = rc_mu c) ->
  reweighing r d x P m c M t rs -> tm_run x t (rounds_of rs) = Ok t' ->
  (robust_team_cost r d c M Pri (range 0 m) t' <= robust_team_cost r d c M Pri (range 0 m) t)%R.
Proof. exact robust_rounds. Qed.

Example C66_rounds_case : exists os t0 t, treach rx (eP 0) 3 os t0 /\ staged 3 2 d_data (fun _ => []) (eP 0) e_c t0 /\ (forall n, rc_mu (rc_updates n e_c) = rc_mu e_c) /\
  reweighing 3 2 rx (eP 0) 3 e_c d_data t0 [([0; 1; 2]%N, e_step)] /\ tm_run rx t0 (rounds_of [([0; 1; 2]%N, e_step)]) = Ok t /\
  robust_team_cost 3 2 e_c d_data (fun _ => []) (range 0 3) t0 = (8 / 17 + 2 / 5)%R /\ robust_team_cost 3 2 e_c d_data (fun _ => []) (range 0 3) t = (8 / 17)%R.
Proof. exact e_rounds. Qed.

(** A robot that still has restarts left goes back to its initial guess when it updates its weights, however good its
    estimate was: the robust cost rises from 0 to 1/2. *)
Theorem C66_reset_refuted : exists os t0 t1, treach rx (eP 1) 3 os t0 /\ (forall k a, robot t0 k a -> comrade 3 2 d_data (fun _ => []) k (eP 1 k) a /\ a_rc a = e_c /\ a_trc a = 0%Z) /\ (forall j, uptodate 3 2 t0 j) /\
  tm_run rx t0 (reweights [0; 1; 2]%N) = Ok t1 /\
  robust_team_cost 3 2 e_c d_data (fun _ => []) (range 0 3) t0 = 0%R /\ robust_team_cost 3 2 e_c d_data (fun _ => []) (range 0 3) t1 = (1 / 2)%R.
Proof. exact f_resets. Qed.

Print Assumptions C66_agree.
Print Assumptions C66_round.
Print Assumptions C66_rounds.
Print Assumptions C66_reset_refuted.
