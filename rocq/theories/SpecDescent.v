(** The cost of a team's dataset along an execution. *)
From Coq Require Import List NArith ZArith Bool Reals.
From Verif Require Import Base SMap Num RSum ModelTypes ModelPoseGraph ModelPoses ModelSolver ModelAgent ModelTeam SpecPoseGraph SpecPGHist SpecCost SpecAgent SpecRun SpecTeam.
Import ListNotations.

(** The present estimate of robot [k]. *)
Definition est (t : Team R) (k : N) : Mx R := nth (N.to_nat k) (map (fun a => pa_X (a_X a)) (tm_agents t)) (mzero 0 0).
(** The cost of the dataset [M] and the priors [Pri] at the present estimates. *)
Definition team_cost (r d : nat) (M : list (Meas R)) (Pri : N -> list (N * Mx R)) (ids : list N) (t : Team R) : R := central_cost r d M ids Pri (est t).

(** The robots are initialised, have no acceleration, and each has stored the part
    of the dataset that touches it; no data matrices were built yet. *)
Record member (r d : nat) (M : list (Meas R)) (Pri : N -> list (N * Mx R)) (k : N) (p : AgentParams R) (a : Agent R) : Prop := {
  mb_r : p_r p = r; mb_d : p_d p = d; mb_acc : p_accel p = false; mb_init : a_state a = INITIALIZED;
  mb_knows : knows k M (a_pg a); mb_priors : pg_priors (a_pg a) = Pri k;
  mb_inact : pg_useinact (a_pg a) = false; mb_self : no_self (a_pg a); mb_last : last_private (a_pg a);
  mb_active : forall e, In e (pg_shared (a_pg a)) -> isNeighborActive (a_pg a) (other_robot k e) = Ok true;
  mb_Q : pg_Q (a_pg a) = None; mb_G : pg_G (a_pg a) = None }.

(** Robot [j]'s cached neighbour poses are the present ones. *)
Definition uptodate (r d : nat) (t : Team R) (j : N) : Prop := forall a e, robot t j a -> In e (pg_shared (a_pg a)) ->
  exists b, robot t (robot_id (other_pose j e)) b /\ fresh r d j a b e.

(** A robot optimises only when its cached poses are the present ones, with an
    optimiser that does not raise the cost it is given.  Messages are sent and
    delivered at will. *)
Definition careful1 (r d : nat) (t : Team R) (o : top R) : Prop :=
  match o with
  | TCall j (AIterate opt true) | TCall j (AThread opt) => opt_sized opt /\ descending opt /\ uptodate r d t j
  | TCall _ (AIterate _ false) | TCall _ AGetStatus | TCall _ AStart | TCall _ AEnd | TCall _ AClearNbr | TCall _ AClearActive => True
  | TCall _ _ => False
  | _ => True
  end.
Fixpoint careful (r d : nat) (x : Ext R) (t : Team R) (os : list (top R)) : Prop :=
  match os with
  | [] => True
  | o :: os => careful1 r d t o /\ forall t', tm_step x t o = Ok t' -> careful r d x t' os
  end.

(** One step each of the robots [js]. *)
Definition steps (opt : N -> Optimizer R) (js : list N) : list (top R) := map (fun j => TCall j (AIterate (opt j) true)) js.
(** No two of the robots [js] share an edge. *)
Definition apart (t : Team R) (js : list N) : Prop := forall i j a e, In i js -> In j js -> robot t i a -> In e (pg_shared (a_pg a)) -> robot_id (other_pose i e) <> j.

(** Robot [j] collects the poses of the robots [ks], then optimises; rounds of the robots [js]. *)
Fixpoint gather (j : N) (ks : list N) (ns np : nat) : list (top R) :=
  match ks with
  | [] => []
  | k :: ks => pass k j ns np ++ gather j ks (Datatypes.S ns) (Datatypes.S np)
  end.
Fixpoint rounds (nb : N -> list N) (opt : N -> Optimizer R) (js : list N) (ns np : nat) : list (top R) :=
  match js with
  | [] => []
  | j :: js => gather j (nb j) ns np ++ TCall j (AIterate (opt j) true) :: rounds nb opt js (ns + length (nb j)) (np + length (nb j))
  end.
