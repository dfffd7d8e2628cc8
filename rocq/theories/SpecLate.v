(** A prior set on a graph whose matrices are already stored: what is then
    evaluated as cost. *)
From Coq Require Import List NArith Reals.
From Verif Require Import Base Num RSum ModelTypes ModelPoseGraph ModelProblem ModelPoses ModelAgent SpecPGHist SpecCost.
Import ListNotations.
Local Open Scope R_scope.

(** The inner product of pose and prior, weighted with the precisions 10000
    and 100 of the prior. *)
Definition prior_pull (r d : nat) (P X : nat -> nat -> R) : R :=
  10000 * rsum r (fun a => rsum d (fun c => P a c * X a c)) +
  100 * rsum r (fun a => P a d * X a d).

(** From [g]: the matrices are built, pose [i] gets the prior [P], and the
    neighbour poses [D] are handed over. *)
Definition late (g : PoseGraph R) (i : N) (P : Mx R) (D : list (PoseID * Mx R)) (g' : PoseGraph R) : Prop :=
  exists g1 g2, constructDataMatrices g = Ok (g1, true) /\ setPrior g1 i P = Ok g2 /\ g' = setNeighborPoses g2 D.

(** [g'] has the edges and activity flags of [g], the neighbour poses [D], and
    the priors of [g] with the one of pose [i] replaced by [P]. *)
Definition reprior (g : PoseGraph R) (i : N) (P : Mx R) (D : list (PoseID * Mx R)) (g' : PoseGraph R) : Prop :=
  measurements g' = measurements g /\ (forall k, isNeighborActive g' k = isNeighborActive g k) /\
  pg_useinact g' = pg_useinact g /\ pg_nposes g' = D /\
  (forall j Y, In (j, Y) (pg_priors g') <-> (j = i /\ Y = P) \/ (j <> i /\ In (j, Y) (pg_priors g))) /\
  NoDup (map fst (pg_priors g')).

(** Neighbour poses as the agent hands them over. *)
Definition handed_ok (r d : nat) (D : list (PoseID * Mx R)) : Prop :=
  op_ok (PSetNbr D) /\ forall p Z, In (p, Z) D -> mrows Z = r /\ mcols Z = S d.

(** [X'] is [X] with [u] added to the translation of each of the [n] poses. *)
Definition translated (r d n : nat) (u : nat -> R) (X X' : Mx R) : Prop :=
  mrows X' = mrows X /\ mcols X' = mcols X /\
  forall a i c, (a < r)%nat -> (i < n)%nat -> (c <= d)%nat ->
    X' a (i * S d + c)%nat = X a (i * S d + c)%nat + (if Nat.eqb c d then u a else 0).

(** The call [o] anchors the first pose of [a] at [P]. *)
Definition anchoring (a : Agent R) (o : aop R) (P : Mx R) : Prop :=
  o = AAnchorWith P \/ (o = AAnchorFirst /\ pa_pose (a_X a) 0 = Ok P).
