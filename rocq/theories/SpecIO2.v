(** Specification of the log files by column names, and of the rotation of a
    quaternion (C44-C46). *)
From Coq Require Import List NArith Bool Ascii String Decimal DecimalString Reals.
From Verif Require Import Base Num ModelTypes ModelIO SpecIO SpecSolver.
Import ListNotations.
Local Open Scope string_scope.

Definition meas_cols : list string :=
  ["robot_src"; "pose_src"; "robot_dst"; "pose_dst"; "qx"; "qy"; "qz"; "qw"; "tx"; "ty"; "tz"; "kappa"; "tau"; "is_known_inlier"; "weight"].
Definition traj_cols : list string := ["pose_index"; "qx"; "qy"; "qz"; "qw"; "tx"; "ty"; "tz"].
(** A header line, then one line per row with the row's texts in these columns. *)
Definition table (header : string) (cols : list string) (rows : list (string -> string)) : string :=
  String.concat "" (map (fun l => l ++ String (ascii_of_nat 10) "") (header :: map (fun v => String.concat "," (map v cols)) rows)).
Definition titles (cols : list string) : string := String.concat "," cols.
Definition decimal (n : N) : string := NilZero.string_of_uint (N.to_uint n).

Local Open Scope R_scope.
(** Hamilton's product; [turns q M]: M turns vectors as q v q* / |q|^2 does. *)
Definition qmul (p q : Quat R) : Quat R :=
  mkQuat (qw p * qx q + qx p * qw q + qy p * qz q - qz p * qy q)
         (qw p * qy q - qx p * qz q + qy p * qw q + qz p * qx q)
         (qw p * qz q + qx p * qy q - qy p * qx q + qz p * qw q)
         (qw p * qw q - qx p * qx q - qy p * qy q - qz p * qz q).
Definition qconj (q : Quat R) : Quat R := mkQuat (- qx q) (- qy q) (- qz q) (qw q).
Definition qnorm2 (q : Quat R) : R := qx q * qx q + qy q * qy q + qz q * qz q + qw q * qw q.
Definition turns (q : Quat R) (M : nat -> nat -> R) : Prop := forall x y z,
  qmul (qmul q (mkQuat x y z 0)) (qconj q) =
  mkQuat (qnorm2 q * (M 0%nat 0%nat * x + M 0%nat 1%nat * y + M 0%nat 2%nat * z))
         (qnorm2 q * (M 1%nat 0%nat * x + M 1%nat 1%nat * y + M 1%nat 2%nat * z))
         (qnorm2 q * (M 2%nat 0%nat * x + M 2%nat 1%nat * y + M 2%nat 2%nat * z)) 0.

Section S.
Variable F : Fmt R.

(** The texts written for a measurement and for pose [i] of a trajectory. *)
Definition quat_written (M : nat -> nat -> R) (v : string -> string) : Prop :=
  exists q, qnorm2 q = 1 /\ turns q M /\ v "qx" = f_show F (qx q) /\ v "qy" = f_show F (qy q) /\ v "qz" = f_show F (qz q) /\ v "qw" = f_show F (qw q).
Definition meas_written (m : Meas R) (v : string -> string) : Prop :=
  v "robot_src" = decimal (mr1 m) /\ v "pose_src" = decimal (mp1 m) /\ v "robot_dst" = decimal (mr2 m) /\ v "pose_dst" = decimal (mp2 m) /\
  quat_written (mR m) v /\ v "tx" = f_show F (mt m 0%nat 0%nat) /\ v "ty" = f_show F (mt m 1%nat 0%nat) /\ v "tz" = f_show F (mt m 2%nat 0%nat) /\
  v "kappa" = f_show F (mkappa m) /\ v "tau" = f_show F (mtau m) /\ v "is_known_inlier" = (if mfixed m then "1" else "0")%string /\ v "weight" = f_show F (mweight m).
Definition traj_written (T : Mx R) (i : nat) (v : string -> string) : Prop :=
  v "pose_index" = decimal (N.of_nat i) /\ quat_written (fun a b => T a (4 * i + b)%nat) v /\
  v "tx" = f_show F (T 0%nat (4 * i + 3)%nat) /\ v "ty" = f_show F (T 1%nat (4 * i + 3)%nat) /\ v "tz" = f_show F (T 2%nat (4 * i + 3)%nat).

(** A field that [stod] reads. *)
Definition is_number (s : string) : Prop := plain s /\ exists x, f_stod F s = Ok x.
Definition is_id (s : string) (n : N) : Prop := s = decimal n /\ small_id n.
(** A nonzero quaternion in the fields gives its rotation. *)
Definition quat_read (v : string -> string) (M : nat -> nat -> R) : Prop :=
  exists q, f_stod F (v "qx") = Ok (qx q) /\ f_stod F (v "qy") = Ok (qy q) /\ f_stod F (v "qz") = Ok (qz q) /\ f_stod F (v "qw") = Ok (qw q) /\
    (qnorm2 q <> 0 -> turns q M).
Definition meas_readable (v : string -> string) : Prop :=
  (forall c, In c ["robot_src"; "pose_src"; "robot_dst"; "pose_dst"] -> exists n, is_id (v c) n) /\
  (forall c, In c ["qx"; "qy"; "qz"; "qw"; "tx"; "ty"; "tz"; "kappa"; "tau"; "weight"] -> is_number (v c)) /\
  (v "is_known_inlier" = "0"%string \/ v "is_known_inlier" = "1"%string).
Definition meas_read (lw : bool) (v : string -> string) (m : Meas R) : Prop :=
  v "robot_src" = decimal (mr1 m) /\ v "pose_src" = decimal (mp1 m) /\ v "robot_dst" = decimal (mr2 m) /\ v "pose_dst" = decimal (mp2 m) /\
  quat_read v (mR m) /\ f_stod F (v "tx") = Ok (mt m 0%nat 0%nat) /\ f_stod F (v "ty") = Ok (mt m 1%nat 0%nat) /\ f_stod F (v "tz") = Ok (mt m 2%nat 0%nat) /\
  f_stod F (v "kappa") = Ok (mkappa m) /\ f_stod F (v "tau") = Ok (mtau m) /\ v "is_known_inlier" = (if mfixed m then "1" else "0")%string /\
  (if lw then f_stod F (v "weight") = Ok (mweight m) else mweight m = 1) /\ meas3 m.
Definition traj_readable (v : string -> string) (n : N) : Prop :=
  is_id (v "pose_index") n /\ forall c, In c ["qx"; "qy"; "qz"; "qw"; "tx"; "ty"; "tz"] -> is_number (v c).
Definition traj_read (v : string -> string) (T : Mx R) (i : nat) : Prop :=
  quat_read v (fun a b => T a (4 * i + b)%nat) /\
  f_stod F (v "tx") = Ok (T 0%nat (4 * i + 3)%nat) /\ f_stod F (v "ty") = Ok (T 1%nat (4 * i + 3)%nat) /\ f_stod F (v "tz") = Ok (T 2%nat (4 * i + 3)%nat).
End S.
