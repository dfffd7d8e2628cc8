(** The robust cost of a team's dataset. *)
From Coq Require Import List NArith ZArith Bool Reals Permutation.
From Verif Require Import Base SMap Num RSum ModelTypes ModelPoseGraph ModelRobust ModelPoses ModelSolver ModelAgent ModelExample ModelTeam
  SpecPoseGraph SpecPGHist SpecCost SpecRobust SpecAgent SpecRun SpecTeam SpecDescent.
Import ListNotations.
Local Open Scope R_scope.

(** The measurements subject to the robust cost: loop closures whose weight is not fixed. *)
Definition adaptive (m : Meas R) : bool := negb ((mr1 m =? mr2 m)%N && (mp2 m =? mp1 m + 1)%N) && negb (mfixed m).
(** Residual of a measurement at the present estimates. *)
Definition residual_at (r d : nat) (t : Team R) (m : Meas R) : R := sqrt (central_edge r d (est t) (set_mweight 1 m)).
(** The loss of an adaptive measurement, whatever its weight; half the weighted square of the others. *)
Definition robust_edge (r d : nat) (c : RobustCost R) (t : Team R) (m : Meas R) : R :=
  if adaptive m then loss (rc_params c) (rc_mu c) (residual_at r d t m) else central_edge r d (est t) m / 2.
Definition robust_team_cost (r d : nat) (c : RobustCost R) (M : list (Meas R)) (Pri : N -> list (N * Mx R)) (ids : list N) (t : Team R) : R :=
  nsumL (robust_edge r d c t) M +
  / 2 * nsumL (fun k => nsumL (fun kv : N * Mx R => prior_cost r d (snd kv) (pose_blk d (est t k) (N.to_nat (fst kv)))) (Pri k)) ids.

(** The robots are initialised, have no acceleration, and each has stored the part of the dataset that
    touches it.  Both copies of a shared edge are the dataset's: the team agrees on the weights. *)
Record comrade (r d : nat) (M : list (Meas R)) (Pri : N -> list (N * Mx R)) (k : N) (p : AgentParams R) (a : Agent R) : Prop := {
  cm_r : p_r p = r; cm_d : p_d p = d; cm_acc : p_accel p = false; cm_init : a_state a = INITIALIZED;
  cm_knows : knows k M (a_pg a); cm_priors : pg_priors (a_pg a) = Pri k;
  cm_inact : pg_useinact (a_pg a) = false; cm_self : no_self (a_pg a); cm_last : last_private (a_pg a);
  cm_active : forall e, In e (pg_shared (a_pg a)) -> isNeighborActive (a_pg a) (other_robot k e) = Ok true }.
(** All robots are at the stage [c] of the robust optimisation and will not go back to their initial guess. *)
Definition staged (r d : nat) (M : list (Meas R)) (Pri : N -> list (N * Mx R)) (P : N -> AgentParams R) (c : RobustCost R) (t : Team R) : Prop :=
  forall k a, robot t k a -> comrade r d M Pri k (P k) a /\ a_rc a = c /\ (p_nreset (P k) <= a_trc a)%Z.

(** The robots [ks] update their weights. *)
Definition reweights (ks : list N) : list (top R) := map (fun k => TCall k AUpdWeights) ks.

(** The loss |r| has no weight at 0. *)
Definition off_zero (r d : nat) (c : RobustCost R) (M : list (Meas R)) (t : Team R) : Prop :=
  costType (rc_params c) = L1 -> forall m, In m M -> adaptive m = true -> 0 < residual_at r d t m.

(** Rounds: all robots, in some order, update their weights with up-to-date caches, then the team works carefully. *)
Fixpoint reweighing (r d : nat) (x : Ext R) (P : N -> AgentParams R) (m : N) (c : RobustCost R) (M : list (Meas R)) (t : Team R) (rs : list (list N * list (top R))) : Prop :=
  match rs with
  | [] => True
  | (ks, os) :: rs => Permutation ks (range 0 m) /\ (forall j, uptodate r d t j) /\ off_zero r d c M t /\ Forall (top_ok P) os /\
      forall t1, tm_run x t (reweights ks) = Ok t1 -> careful r d x t1 os /\
      forall t2, tm_run x t1 os = Ok t2 -> reweighing r d x P m c M t2 rs
  end.
Definition rounds_of (rs : list (list N * list (top R))) : list (top R) := flat_map (fun ko => reweights (fst ko) ++ snd ko) rs.
