(** Team executions. *)
From Coq Require Import List NArith ZArith Bool Reals.
From Verif Require Import Base SMap Num RSum ModelTypes ModelPoseGraph ModelRobust ModelPoses ModelSolver ModelAgent ModelTeam SpecPoseGraph SpecCost SpecAgent SpecStatus.
Import ListNotations.
Local Open Scope res_scope.

Section S.
Context {S : Type} `{Num S}.

(** What the users of the agents do: neighbour poses and statuses come from the
    network only; auxiliary poses are asked for with acceleration only. *)
Definition top_ok (P : N -> AgentParams S) (o : top S) : Prop :=
  match o with
  | TCall _ (AUpdNbr _ _) | TCall _ (AUpdAux _ _) | TCall _ (AStatus _) => False
  | TCall _ o => aop_ok o
  | TSendPoses k aux _ => aux = true -> p_accel (P k) = true
  | _ => True
  end.
Definition treach (x : Ext S) (P : N -> AgentParams S) (m : N) (os : list (top S)) (t : Team S) : Prop :=
  (do t0 <- tm_new x P m; tm_run x t0 os) = Ok t /\ Forall (top_ok P) os.
(** Robot [k] of a team. *)
Definition robot (t : Team S) (k : N) (a : Agent S) : Prop := nth_error (tm_agents t) (N.to_nat k) = Some a.
(** At some moment of the execution, robot [k] was in a state with [F]. *)
Definition once (x : Ext S) (P : N -> AgentParams S) (m : N) (os : list (top S)) (k : N) (F : Agent S -> Prop) : Prop :=
  exists os1 os2 t a, os = os1 ++ os2 /\ treach x P m os1 t /\ robot t k a /\ F a.
(** Robot [k] made an optimising step that succeeded, moved it by no more than
    the tolerance, and left enough loop closures decided. *)
Definition settled (x : Ext S) (p : AgentParams S) (a : Agent S) : Prop :=
  a_state a = INITIALIZED /\ exists opt a' change st, ag_iterate x opt a true = Ok (a', true) /\ maxTranslationDistance (a_X a') (a_X a) = Ok change /\
    nltb (tolerance p (a_wuc a)) change = false /\ statistics (a_pg a') = Ok st /\ decided p st.
(** Robot [k] sends its status and public poses, and [j] receives them; [ns] statuses
    and [np] dictionaries were sent before. *)
Definition pass (k j : N) (ns np : nat) : list (top S) := [TSendStatus k; TSendPoses k false None; TStatus j ns; TPoses j np].
(** Robot [j]'s copy of robot [k]'s part of the shared edge [e] is up to date. *)
Definition fresh (r d : nat) (j : N) (a b : Agent S) (e : Meas S) : Prop :=
  exists v, mfind pose_ltb (other_pose j e) (a_ndict a) = Some v /\ is_block r d (pa_X (a_X b)) (N.to_nat (frame_id (other_pose j e))) v.
End S.

(** Pose [f] of robot [i] in the estimates [X]. *)
Definition pose_of_all (d : nat) (X : N -> PoseArr R) (i f : N) : nat -> nat -> R := fun u v => pa_X (X i) u (N.to_nat f * (d + 1) + v)%nat.
Definition edge_res (r d : nat) (e : Meas R) (X : N -> PoseArr R) : R :=
  sqrt (edge_cost r d (set_mweight 1%R e) (pose_of_all d X (mr1 e) (mp1 e)) (pose_of_all d X (mr2 e) (mp2 e))).
