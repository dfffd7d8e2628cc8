(** Specification of the optimiser wrapper (C43). *)
From Coq Require Import List NArith ZArith Bool.
From Verif Require Import Base Num ModelTypes ModelPoseGraph ModelProblem ModelOptimizer.
Import ListNotations.
Local Open Scope num_scope.

Section S.
Context {S : Type} `{Num S} {St : Type} (L : Lib S St).

(** Cost and Riemannian gradient norm at a point. *)
Definition cost_is (g : PoseGraph S) (X : Mx S) (v : S) : Prop := exists g', qp_f g X = Ok (g', v).
Definition gradnorm_is (g : PoseGraph S) (X : Mx S) (v : S) : Prop := exists g', qp_gradnorm L g X = Ok (g', v).

(** Same shape and measurements; and same matrices, which [g'] holds already. *)
Definition like (g g' : PoseGraph S) : Prop :=
  pg_r g' = pg_r g /\ pg_d g' = pg_d g /\ pg_n g' = pg_n g /\ measurements g' = measurements g.
Definition same_data (g g' : PoseGraph S) : Prop :=
  like g g' /\ exists g0 Q G, qp_data g = Ok (g0, Q, G) /\ pg_Q g' = Some Q /\ pg_G g' = Some G.

(** The radius of attempt k: a quarter of the previous one. *)
Fixpoint radius_at (r0 : S) (k : nat) : S :=
  match k with O => r0 | Datatypes.S k => radius_at r0 k / nofZ 4 end.
(** The solver after k attempts, from a starting state. *)
Fixpoint after (st : St) (r0 : S) (k : nat) : St :=
  match k with O => st | Datatypes.S k => l_run L (after st r0 k) (radius_at r0 k) (radius_at r0 k) end.

(** What single-step mode returns. *)
Definition single_step (Y : Mx S) (r0 : S) (X : Mx S) (runs : list (S * S)) : Prop :=
  exists k, (1 <= k <= 12)%nat /\
    (forall j, (1 <= j < k)%nat -> l_accepted L (after (l_new L Y) r0 j) = false) /\
    runs = map (fun j => (radius_at r0 j, radius_at r0 j)) (seq 0 k) /\
    (l_accepted L (after (l_new L Y) r0 k) = true /\ X = l_xopt L (after (l_new L Y) r0 k) \/
     k = 12%nat /\ l_accepted L (after (l_new L Y) r0 k) = false /\ X = Y).

(** States of the solver after any runs. *)
Inductive solver_state (Y : Mx S) : St -> Prop :=
| ss_new : solver_state Y (l_new L Y)
| ss_run st d1 d2 : solver_state Y st -> solver_state Y (l_run L st d1 d2).
(** A solver that accepts only points of cost at most that of the start. *)
Definition descends (g : PoseGraph S) (Y : Mx S) (single : bool) : Prop :=
  forall st d1 d2 v v', solver_state Y st -> (single = true -> l_accepted L (l_run L st d1 d2) = true) ->
    cost_is g Y v -> cost_is g (l_xopt L (l_run L st d1 d2)) v' -> nleb v' v = true.
End S.
