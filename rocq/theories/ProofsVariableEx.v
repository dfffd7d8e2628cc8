(** A program with three variables, over the integers. *)
From Coq Require Import List Bool Arith ZArith.
From Verif Require Import Base Num ModelPoses ModelVariable SpecVariable.
Import ListNotations.
Local Open Scope Z_scope.

Definition pm : Mx Z := mkMx 3 3 (fun i j => Z.of_nat (10 * i + j)).
(** x0: two poses, r = 3, d = 2; x1 a copy made before x0 changes; x2 assigned. *)
Definition prog : list (Op Z) :=
  [ONew 0 3 2 2; OPose 0 1 pm; OCopy 1 0; OTrans 0 0 (mkMx 3 1 (fun i _ => 7 + Z.of_nat i));
   ONew 2 2 2 5; OAssign 2 0; OLib 0 (fun i => mkMx 3 2 (fun p q => Z.of_nat (100 * i + 10 * p + q))) (fun i => mkMx 3 1 (fun p _ => - Z.of_nat (i + p)));
   ODelete 1].
Definition peek (s : State) (x : nat) (p c : nat) : option Z :=
  match s_obj s x with
  | Some o => match v_getData (s_mem s) o with Ok X => Some (Num.mat X p c) | _ => None end
  | None => None
  end.
Definition peek_all (x : nat) : list (list (option Z)) :=
  match exec prog with
  | Ok s => map (fun p => map (peek s x p) (seq 0 6)) (seq 0 3)
  | _ => []
  end.
Lemma prog_ok : Forall no_self prog /\
  peek_all 0 = [[Some 0; Some 1; Some 0; Some 100; Some 101; Some (-1)];
                [Some 10; Some 11; Some (-1); Some 110; Some 111; Some (-2)];
                [Some 20; Some 21; Some (-2); Some 120; Some 121; Some (-3)]] /\
  peek_all 2 = [[Some 1; Some 0; Some 7; Some 0; Some 1; Some 2];
                [Some 0; Some 1; Some 8; Some 10; Some 11; Some 12];
                [Some 0; Some 0; Some 9; Some 20; Some 21; Some 22]] /\
  (exists s, exec prog = Ok s /\ s_obj s 1 = None).
Proof.
  split; [repeat constructor; discriminate|]. split; [vm_compute; reflexivity|]. split; [vm_compute; reflexivity|].
  destruct (exec prog) as [s| |] eqn:E; [|vm_compute in E; discriminate|vm_compute in E; discriminate].
  exists s. split; [reflexivity|]. assert (match exec prog with Ok s => s_obj s 1 | _ => None end = None) as Hn by (vm_compute; reflexivity).
  now rewrite E in Hn.
Qed.
(** A view past the last pose and a matrix of the wrong size terminate, a block
    of the wrong size is undefined. *)
Lemma prog_bad :
  exec [ONew 0 3 2 2; OPose 0 2 pm] = Abort /\ exec [ONew 0 3 2 2; OSet 0 pm] = Abort /\
  exec [ONew 0 3 2 2; ORot 0 0 pm] = UB /\ exec [ONew (S := Z) 0 2 3 1] = UB.
Proof. repeat split; vm_compute; reflexivity. Qed.

Lemma self_assign_refuted : exists (ops : list (Op Z)) t v, value_exec ops = Ok t /\ t O = Some v /\
  val v 0 0 0 = 1 /\ exec ops = UB.
Proof.
  exists [ONew 0 3 2 2; OAssign 0 0]. eexists. eexists. split; [reflexivity|]. split; [reflexivity|]. split; vm_compute; reflexivity.
Qed.
