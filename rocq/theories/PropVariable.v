(** C59: Eigen views of ROPTLIB variables. *)
From Coq Require Import List NArith ZArith.
From Verif Require Import Base Num ModelPoses ModelVariable SpecVariable ProofsVariable ProofsVariableEx.
Import ListNotations.

(** A program with lifted variables behaves as if every variable held its poses
    by value; the matrix, the views and ROPTLIB's factors show the same numbers. *)
Theorem C59_values : forall {S} `{Num S} (ops : list (Op S)), Forall no_self ops ->
  match value_exec ops with
  | Ok t => exists s, exec ops = Ok s /\ agrees s t
  | Abort => exec ops = Abort
  | UB => exec ops = UB
  end.
Proof. exact @exec_values. Qed.
Print Assumptions C59_values.

Example C59_values_example : Forall no_self prog /\
  peek_all 0 = [[Some 0; Some 1; Some 0; Some 100; Some 101; Some (-1)];
                [Some 10; Some 11; Some (-1); Some 110; Some 111; Some (-2)];
                [Some 20; Some 21; Some (-2); Some 120; Some 121; Some (-3)]]%Z /\
  peek_all 2 = [[Some 1; Some 0; Some 7; Some 0; Some 1; Some 2];
                [Some 0; Some 1; Some 8; Some 10; Some 11; Some 12];
                [Some 0; Some 0; Some 9; Some 20; Some 21; Some 22]]%Z /\
  (exists s, exec prog = Ok s /\ s_obj s 1 = None).
Proof. exact prog_ok. Qed.

Example C59_values_example_bad :
  exec [ONew 0 3 2 2; OPose 0 2 pm] = Abort /\ exec [ONew 0 3 2 2; OSet 0 pm] = Abort /\
  exec [ONew 0 3 2 2; ORot 0 0 pm] = UB /\ exec [ONew (S := Z) 0 2 3 1] = UB.
Proof. exact prog_bad. Qed.

(** Assigning a variable to itself reads memory that was never written. *)
Theorem C59_self_assignment : forall {S} `{Num S} (ops : list (Op S)) t x v, Forall no_self ops -> value_exec ops = Ok t ->
  t x = Some v -> (0 < val_r v)%nat -> (0 < val_n v)%nat -> exec (ops ++ [OAssign x x]) = UB.
Proof. exact @exec_self_assign. Qed.
Print Assumptions C59_self_assignment.

Theorem C59_self_assignment_refuted : exists (ops : list (Op Z)) t v, value_exec ops = Ok t /\ t O = Some v /\
  val v 0 0 0 = 1%Z /\ exec ops = UB.
Proof. exact self_assign_refuted. Qed.
Print Assumptions C59_self_assignment_refuted.

(** Tangent vectors: what is stored is read back, nothing else changes; a matrix
    of another size terminates. *)
Theorem C59_vector : forall {S} `{Num S} (m : Mem S) r d n Y, (1 <= n)%nat ->
  let '(m1, w) := w_new m r d n in
  match w_setData m1 w Y with
  | Ok m2 => mrows Y = r /\ mcols Y = ((d + 1) * n)%nat /\
      exists X, w_getData m2 w = Ok X /\ mrows X = r /\ mcols X = (n * (d + 1))%nat /\
      (forall p c, (p < r)%nat -> (c < n * (d + 1))%nat -> X p c = Y p c) /\
      (forall a, (a < m_next m)%nat -> m_blk m2 a = m_blk m a)
  | Abort => mrows Y <> r \/ mcols Y <> ((d + 1) * n)%nat
  | UB => False
  end.
Proof. exact @vec_roundtrip. Qed.
Print Assumptions C59_vector.

Example C59_vector_example :
  let '(m1, w) := w_new (mem0 : Mem Z) 3 2 1 in
  match w_setData m1 w pm with
  | Ok m2 => match w_getData m2 w with Ok X => map (fun p => map (X p) [0; 1; 2]) [0; 1; 2]%nat = [[0; 1; 2]; [10; 11; 12]; [20; 21; 22]]%Z | _ => False end
  | _ => False
  end.
Proof. vm_compute. reflexivity. Qed.

(** A tangent vector that is copied is released twice. *)
Theorem C59_vector_copy_refuted : forall {S} (m : Mem S) r d n,
  let '(m1, w) := w_new m r d n in
  exists m2, w_delete m1 (w_copy w) = Ok m2 /\ w_delete m2 w = UB.
Proof. exact @vec_copy_double_free. Qed.
Print Assumptions C59_vector_copy_refuted.
