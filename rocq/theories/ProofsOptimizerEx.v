(** Concrete solvers for the examples of PropOptimizer, over the rationals. *)
From Coq Require Import List NArith ZArith Bool Arith Lia QArith.
From Verif Require Import Base SMap Num ModelTypes ModelPoseGraph ModelProblem ModelOptimizer SpecPoseGraph SpecOptimizer ProofsPoseGraph ProofsAgentEx ProofsOptimizer.
Import ListNotations.
Local Open Scope res_scope.

(** One measurement of translation 3 between poses 0 and 1 of robot 0. *)
Definition qg_r : res (PoseGraph Q) := do g <- newPoseGraph 0 2 2; pg_run g [PAdd (zm 0 0 0 1 3 0 true 1)].
Definition qpair (x : Q) : Mx Q :=
  mkMx 2 6 (fun i j => match i, j with 0%nat, 0%nat | 1%nat, 1%nat | 0%nat, 3%nat | 1%nat, 4%nat => 1%Q | 0%nat, 5%nat => x | _, _ => 0%Q end).
(** A solver whose first [m] attempts are rejected and whose next one moves to the
    exact solution; a flat manifold. *)
Definition qlib (m : nat) : Lib Q (nat * Mx Q) := mkLib (fun _ V => V) madd
  (fun Y => (O, Y)) (fun st _ _ => (Datatypes.S (fst st), if (m <=? fst st)%nat then qpair 3 else snd st))
  (fun st => (m <? fst st)%nat) snd (fun _ => true) (fun _ V => V).
Definition qpar (rtr : bool) (iters : Z) (step : Q) : ROptParams Q := mkRO rtr (1 # 100)%Q step false iters 8%Q.

Definition qg_holds (P : PoseGraph Q -> Prop) : Prop := match qg_r with Ok g => P g | _ => False end.
Lemma qg_ex P : qg_holds P -> exists g, qg_r = Ok g /\ P g.
Proof. unfold qg_holds. destruct qg_r as [g| |]; try contradiction. eauto. Qed.

Definition qg_opt (m : nat) (p : ROptParams Q) (x : Q) (F : list (Q * Q) -> Q -> Q -> list (list Q) -> Prop) (g : PoseGraph Q) : Prop :=
  match optimize (qlib m) p g (qpair x) with
  | Ok (_, X, r, runs) => F runs (rr_fInit r) (rr_fOpt r) (dump X)
  | _ => False end.

Lemma qlib_descends g m x v0 : qg_r = Ok g -> (exists g', qp_f g (qpair 3) = Ok (g', 0%Q)) -> (exists g', qp_f g (qpair x) = Ok (g', v0)) -> Qle_bool 0 v0 = true ->
  descends (qlib m) g (qpair x) true.
Proof.
  intros _ [ga A] [gb B] HL st d1 d2 v v' HS HA [gc C0] [gd C1]. specialize (HA eq_refl).
  cbn [qlib l_run l_accepted fst l_xopt snd] in HA, C1. apply Nat.ltb_lt in HA.
  destruct (Nat.leb_spec m (fst st)); [|lia]. change (nleb v' v) with (Qle_bool v' v). congruence.
Qed.

Lemma ex_single : exists g, qg_r = Ok g /\
  qg_opt 2 (qpar true 1 0) 1 (fun runs f0 f1 X => runs = [(8, 8); (2, 2); (1 # 2, 1 # 2)]%Q /\ f0 = 2%Q /\ f1 = 0%Q /\ X = dump (qpair 3)) g /\
  qg_opt 20 (qpar true 1 0) 1 (fun runs f0 f1 X => length runs = 12%nat /\ f0 = 2%Q /\ f1 = 2%Q /\ X = dump (qpair 1)) g /\
  qg_opt 0 (qpar true 5 0) 1 (fun runs f0 f1 X => runs = [(8, 40)]%Q /\ f0 = 2%Q /\ f1 = 0%Q /\ X = dump (qpair 3)) g /\
  qg_opt 0 (qpar true 1 0) 3 (fun runs f0 f1 X => runs = [] /\ f0 = 0%Q /\ f1 = 0%Q /\ X = dump (qpair 3)) g /\
  descends (qlib 2) g (qpair 1) true.
Proof.
  destruct (qg_ex (fun g =>
     (qg_opt 2 (qpar true 1 0) 1 (fun runs f0 f1 X => runs = [(8, 8); (2, 2); (1 # 2, 1 # 2)]%Q /\ f0 = 2%Q /\ f1 = 0%Q /\ X = dump (qpair 3)) g /\
  qg_opt 20 (qpar true 1 0) 1 (fun runs f0 f1 X => length runs = 12%nat /\ f0 = 2%Q /\ f1 = 2%Q /\ X = dump (qpair 1)) g /\
  qg_opt 0 (qpar true 5 0) 1 (fun runs f0 f1 X => runs = [(8, 40)]%Q /\ f0 = 2%Q /\ f1 = 0%Q /\ X = dump (qpair 3)) g /\
  qg_opt 0 (qpar true 1 0) 3 (fun runs f0 f1 X => runs = [] /\ f0 = 0%Q /\ f1 = 0%Q /\ X = dump (qpair 3)) g) /\
     match qp_f g (qpair 3) with Ok (_, v) => v = 0%Q | _ => False end /\
     match qp_f g (qpair 1) with Ok (_, v) => v = 2%Q | _ => False end)) as (g & E & (A & B & C & D) & F0 & F1).
  { vm_compute. repeat split. }
  exists g. repeat (split; [assumption|]).
  apply (qlib_descends g 2 1 2%Q E); [| |reflexivity].
  - destruct (qp_f g (qpair 3)) as [[g' v]| |]; try contradiction. subst v. eauto.
  - destruct (qp_f g (qpair 1)) as [[g' v]| |]; try contradiction. subst v. eauto.
Qed.

(** A step of gradient descent that is too long raises the cost. *)
Lemma gd_raises : exists (St : Type) (L : Lib Q St) p g Y g' X r runs, optimize L p g Y = Ok (g', X, r, runs) /\
  ro_rtr p = false /\ (rr_fInit r < rr_fOpt r)%Q.
Proof.
  destruct (qg_ex (qg_opt 0 (qpar false 1 2) 1 (fun runs f0 f1 X => (f0 < f1)%Q))) as (g & E & A); [vm_compute; reflexivity|].
  unfold qg_opt in A. destruct (optimize (qlib 0) (qpar false 1 2) g (qpair 1)) as [[[[g' X] r] runs]| |] eqn:EO; try contradiction.
  exists _, (qlib 0), (qpar false 1 2), g, (qpair 1), g', X, r, runs. auto.
Qed.
