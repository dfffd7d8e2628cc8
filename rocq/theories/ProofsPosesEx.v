(** Concrete cases for C27, C28. *)
From Coq Require Import List NArith ZArith Bool Arith Lia Reals Lra.
From Verif Require Import Base Num RSum Det ModelTypes ModelPoses SpecCost SpecSolver.
Import ListNotations.
Local Open Scope R_scope.

(** A quarter turn with translation (5, 7). *)
Definition px : PoseArr R := mkPA 2 2 1 (mlit 2 3 [[0; -1; 5]; [1; 0; 7]]).
Definition px_inv : Mx R := mlit 3 3 [[0; 1; -7]; [-1; 0; 5]; [0; 0; 1]].

Lemma px_rigid : rigid 2 px.
Proof.
  do 5 (split; [reflexivity|]). split.
  - intros b c Hb Hc. destruct b as [|[|b]]; destruct c as [|[|c]]; try lia; simpl; lra.
  - cbv [det sgn minor skip nsum px pa_X]. simpl. ring.
Qed.

Lemma px_inv_ok : inv_at (fun _ => px_inv) 2 px.
Proof.
  intros A _ HA. do 2 (split; [reflexivity|]). simpl (2 + 1)%nat in *.
  intros i j Hi Hj.
  assert (E : forall a b, (a < 3)%nat -> (b < 3)%nat -> A a b = hom 2 px a b) by (intros; apply HA; auto).
  cbn [nsum]. rewrite !E by lia. unfold hom, px, px_inv.
  destruct i as [|[|[|i]]]; destruct j as [|[|[|j]]]; try lia; simpl; split; lra.
Qed.

(** Writing the rotation of pose 2 of four lifted poses: entry (1,6) changes, its translation
    entry (1,8) and the neighbouring entries (1,5), (1,9) do not. *)
Definition px_a : PoseArr R := mkPA 3 2 4 (mkMx 3 12 (fun i j => INR (i + j))).
Lemma px_arr : exists a', pa_set_rot px_a 2 (mlit 3 2 [[0; 1]; [1; 0]; [0; 0]]) = Ok a' /\
  pa_X a' 1%nat 6%nat = 1 /\ pa_X a' 1%nat 8%nat = pa_X px_a 1%nat 8%nat /\
  pa_X a' 1%nat 5%nat = pa_X px_a 1%nat 5%nat /\ pa_X a' 1%nat 9%nat = pa_X px_a 1%nat 9%nat /\
  pa_set_rot px_a 4 (mzero 3 2) = Abort.
Proof.
  eexists. split; [reflexivity|]. unfold px_a. cbn [pa_X pa_d].
  split; [reflexivity|]. split; [reflexivity|]. split; [reflexivity|]. split; reflexivity.
Qed.
