(** Vocabulary for the log files of an agent. *)
From Coq Require Import List NArith Bool String Reals.
From Verif Require Import Base SMap Num ModelTypes ModelPoseGraph ModelPoses ModelAgent ModelIO SpecAgent.
Import ListNotations.
Local Open Scope string_scope.

Section S.
Context {S : Type} `{Num S}.

(** The calls through which an agent can enter the global frame. *)
Definition entering (o : aop S) : Prop :=
  match o with AInit _ _ | AInitGlobal _ | AUpdNbr _ _ => True | _ => False end.
(** The call did: it was told to, or the agent is initialised afterwards and was not before. *)
Definition entered (a : Agent S) (o : aop S) (a' : Agent S) : Prop :=
  match o with
  | AInitGlobal _ => True
  | AInit _ _ | AUpdNbr _ _ => a_state a <> INITIALIZED /\ a_state a' = INITIALIZED
  | _ => False
  end.

(** The texts of the coefficients of one row of a matrix. *)
Definition row_texts (full : S -> string) (M : Mx S) (i : nat) (l : list string) : Prop :=
  List.length l = mcols M /\ forall j t, nth_error l j = Some t -> t = full (M i j).
End S.

(** The names of the log files. *)
Definition logs : list string := ["measurements.csv"; "trajectory_optimized.csv"; "X.txt"; "trajectory_initial.csv"].

(** The same measurement. *)
Definition same_meas (m m' : Meas R) : Prop :=
  mr1 m' = mr1 m /\ mr2 m' = mr2 m /\ mp1 m' = mp1 m /\ mp2 m' = mp2 m /\ mkappa m' = mkappa m /\ mtau m' = mtau m /\
  mfixed m' = mfixed m /\ mweight m' = mweight m /\ mx_eq (mR m') (mR m) /\ mx_eq (mt m') (mt m).
