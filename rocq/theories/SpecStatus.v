(** Specification of the published status and of the translation distances (C55). *)
From Coq Require Import List NArith ZArith Bool Reals.
From Verif Require Import Base SMap Num RSum ModelTypes ModelPoseGraph ModelRobust ModelPoses ModelSolver ModelAgent SpecAgent SpecCost.
Import ListNotations.

Section S.
Context {S : Type} `{Num S}.

(** An optimising step: iterate(true) of an initialised agent, or a round of its
    optimisation thread. *)
Definition optimises (e : event S) : bool :=
  initialised (e_pre e) && match e_op e with AIterate _ b => b | AThread _ => a_thread (e_pre e) | _ => false end.
(** A reset or an effective weight update. *)
Definition renews (e : event S) : bool := is_reset e || is_reweight e.
(** The change that counts as converged: 5 with a robust cost before the first
    weight update. *)
Definition tolerance (p : AgentParams S) (updates : Z) : S :=
  match costType (p_robust p) with
  | L2 => p_reltol p
  | _ => if (updates =? 0)%Z then nofZ 5 else p_reltol p
  end.
(** Enough loop closures are decided; there may be none at all. *)
Definition decided (p : AgentParams S) (st : Statistics) : Prop :=
  total_lc st = 0%nat \/
  nltb (ndiv (nofZ (Z.of_nat (accept_lc st + reject_lc st))) (nofZ (Z.of_nat (total_lc st)))) (p_minratio p) = false.
End S.

Local Open Scope R_scope.
(** Distance of the i-th translations of two matrices of r x (d+1) blocks. *)
Definition tdist (r d : nat) (X Y : Mx R) (i : nat) : R :=
  sqrt (rsum r (fun k => sq (X k (i * (d + 1) + d)%nat - Y k (i * (d + 1) + d)%nat))).
(** The largest of n numbers, 0 if there is none. *)
Definition largest (n : nat) (f : nat -> R) (m : R) : Prop :=
  (forall i, (i < n)%nat -> f i <= m) /\ (m = 0 \/ exists i, (i < n)%nat /\ m = f i).
