(** What a program with lifted variables computes, with values instead of
    memory: a variable is [n] poses, each an r x (d+1) array, copied on
    assignment. *)
From Coq Require Import List Bool Arith.
From Verif Require Import Base Num ModelPoses ModelVariable.
Import ListNotations.

Section Spec.
Context {S : Type} `{Num S}.

(** Entry [val i p q]: pose [i], row [p], column [q]; column [d] is the
    translation. *)
Record Value := mkValue { val_r : nat; val_d : nat; val_n : nat; val : nat -> nat -> nat -> S }.
Definition Store : Type := nat -> option Value.
Definition bind_name (t : Store) (x : nat) (v : option Value) : Store := fun y => if x =? y then v else t y.

(** All poses the identity: [I; 0] and a zero translation. *)
Definition identity_value (r d n : nat) : Value :=
  mkValue r d n (fun _ p q => if (p =? q) && (q <? d) then n1 else n0).
(** The columns of a matrix, d+1 per pose. *)
Definition of_matrix (r d n : nat) (X : Mx S) : Value := mkValue r d n (fun i p q => X p (i * (d + 1) + q)).
(** Replace columns c, c+1, ... of pose [k]. *)
Definition with_columns (v : Value) (k c w : nat) (X : Mx S) : Value :=
  mkValue (val_r v) (val_d v) (val_n v) (fun i p q => if (i =? k) && (c <=? q) && (q <? c + w) then X p (q - c) else val v i p q).
Definition of_factors (v : Value) (rot trans : nat -> Mx S) : Value :=
  mkValue (val_r v) (val_d v) (val_n v) (fun i p q => if q <? val_d v then rot i p q else trans i p 0).

(** One statement.  [UB] only for misuse: unknown or reused names, d > r, a
    block of another size; [Abort]: a failed CHECK. *)
Definition columns_step (t : Store) (x i : nat) (w : Value -> nat) (c' : Value -> nat) (X : Mx S) : res Store :=
  match t x with
  | None => UB
  | Some v =>
      if val_n v <=? i then Abort
      else if (mrows X =? val_r v) && (mcols X =? w v) then Ok (bind_name t x (Some (with_columns v i (c' v) (w v) X)))
      else UB
  end.
Definition set_step (t : Store) (x : nat) (X : Mx S) : res Store :=
  match t x with
  | None => UB
  | Some v =>
      if (mrows X =? val_r v) && (mcols X =? (val_d v + 1) * val_n v)
      then Ok (bind_name t x (Some (of_matrix (val_r v) (val_d v) (val_n v) X))) else Abort
  end.
Definition new_step (t : Store) (x r d n : nat) : res Store :=
  match t x with
  | Some _ => UB
  | None => if d <=? r then Ok (bind_name t x (Some (identity_value r d n))) else UB
  end.
Definition value_step (t : Store) (op : Op S) : res Store :=
  match op with
  | ONew x r d n => new_step t x r d n
  | OOfPoses x P => bind (new_step t x (pa_r P) (pa_d P) (pa_n P)) (fun t => set_step t x (pa_X P))
  | OCopy x y => match t y, t x with Some v, None => Ok (bind_name t x (Some v)) | _, _ => UB end
  | OAssign x y => match t y, t x with Some v, Some _ => Ok (bind_name t x (Some v)) | _, _ => UB end
  | OSet x X => set_step t x X
  | OPose x i X => columns_step t x i (fun v => val_d v + 1) (fun _ => 0) X
  | ORot x i X => columns_step t x i (fun v => val_d v) (fun _ => 0) X
  | OTrans x i X => columns_step t x i (fun _ => 1) (fun v => val_d v) X
  | OLib x rot trans => match t x with Some v => Ok (bind_name t x (Some (of_factors v rot trans))) | None => UB end
  | ODelete x => match t x with Some _ => Ok (bind_name t x None) | None => UB end
  end.
Definition value_exec (ops : list (Op S)) : res Store := foldM value_step (fun _ => None) ops.

(** No variable is assigned to itself. *)
Definition no_self (op : Op S) : Prop := match op with OAssign x y => x <> y | _ => True end.

(** What can be observed of variable [x] whose value should be [v]. *)
Definition shows (s : State) (x : nat) (v : Value) : Prop :=
  exists o, s_obj s x = Some o /\
  (exists X, v_getData (s_mem s) o = Ok X /\ mrows X = val_r v /\ mcols X = (val_d v + 1) * val_n v /\
     forall i p q, i < val_n v -> p < val_r v -> q <= val_d v -> X p (i * (val_d v + 1) + q) = val v i p q) /\
  (forall i, i < val_n v ->
     (exists Y, v_pose (s_mem s) o i = Ok Y /\ mrows Y = val_r v /\ mcols Y = val_d v + 1 /\
        forall p q, p < val_r v -> q <= val_d v -> Y p q = val v i p q) /\
     (exists Y, v_rot (s_mem s) o i = Ok Y /\ mrows Y = val_r v /\ mcols Y = val_d v /\
        forall p q, p < val_r v -> q < val_d v -> Y p q = val v i p q) /\
     (exists Y, v_trans (s_mem s) o i = Ok Y /\ mrows Y = val_r v /\ mcols Y = 1 /\
        forall p, p < val_r v -> Y p 0 = val v i p (val_d v)) /\
     (exists Y, lib_rot (s_mem s) o i = Ok Y /\ forall p q, p < val_r v -> q < val_d v -> Y p q = val v i p q) /\
     (exists Y, lib_trans (s_mem s) o i = Ok Y /\ forall p, p < val_r v -> Y p 0 = val v i p (val_d v))).
Definition agrees (s : State) (t : Store) : Prop :=
  forall x, match t x with Some v => shows s x v | None => s_obj s x = None end.
End Spec.
Arguments Value : clear implicits.
