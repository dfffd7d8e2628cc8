(** Specification of the file formats (C44-C46). *)
From Coq Require Import List NArith ZArith Bool Ascii String Permutation Reals.
From Verif Require Import Base Num ModelTypes ModelIO.
Import ListNotations.
Local Open Scope string_scope.

(** Does a character occur in a text. *)
Fixpoint has (c : ascii) (s : string) : bool :=
  match s with EmptyString => false | String a s' => Ascii.eqb a c || has c s' end.
Definition plain (s : string) : Prop := has "," s = false /\ has nl s = false.

(** The ids 0, ..., n-1. *)
Definition ids_upto (n : nat) : list N := map N.of_nat (seq 0 n).
(** Few enough rows for 32-bit counters: 2^30. *)
Definition few (ls : list string) : Prop := (N.of_nat (List.length ls) < 1073741824)%N.
(** Exactly representable as a double: 2^53. *)
Definition small_pose (n : N) : Prop := (n < 9007199254740992)%N.

Section S.
Context {S : Type} `{Num S}.
Variable F : Fmt S.

(** Writing a double and reading it back gives [rnd]; the text fits in a field. *)
Definition fmt_at (rnd : S -> S) (x : S) : Prop := plain (f_show F x) /\ f_stod F (f_show F x) = Ok (rnd x).
(** The numbers written for a measurement and for a pose. *)
Definition meas_nums (m : Meas S) : list S :=
  let q := quat_of (mR m) in
  [qx q; qy q; qz q; qw q; mt m 0%nat 0%nat; mt m 1%nat 0%nat; mt m 2%nat 0%nat; mkappa m; mtau m; mweight m].
Definition pose_nums (T : Mx S) (i : nat) : list S :=
  let q := quat_of (mblock T 0 (i * 4) 3 3) in
  [qx q; qy q; qz q; qw q; T 0%nat (i * 4 + 3)%nat; T 1%nat (i * 4 + 3)%nat; T 2%nat (i * 4 + 3)%nat].
(** Three-dimensional, with ids that fit in an [int]. *)
Definition meas3 (m : Meas S) : Prop :=
  mrows (mR m) = 3%nat /\ mcols (mR m) = 3%nat /\ mrows (mt m) = 3%nat /\ mcols (mt m) = 1%nat.
Definition small_id (n : N) : Prop := (n < 2147483648)%N.
Definition small_ids (m : Meas S) : Prop := small_id (mr1 m) /\ small_id (mr2 m) /\ small_id (mp1 m) /\ small_id (mp2 m).

(** What reading back changes: each number once, through its text; the rotation
    through its normalised quaternion. *)
Definition reread_rot (rnd : S -> S) (R : Mx S) : Mx S :=
  let q := quat_of R in q_rot (q_normalize (mkQuat (rnd (qx q)) (rnd (qy q)) (rnd (qz q)) (rnd (qw q)))).
Definition reread (rnd : S -> S) (lw : bool) (m m' : Meas S) : Prop :=
  mr1 m' = mr1 m /\ mr2 m' = mr2 m /\ mp1 m' = mp1 m /\ mp2 m' = mp2 m /\
  mkappa m' = rnd (mkappa m) /\ mtau m' = rnd (mtau m) /\ mfixed m' = mfixed m /\
  mweight m' = (if lw then rnd (mweight m) else n1) /\
  mR m' = reread_rot rnd (mR m) /\
  mrows (mt m') = 3%nat /\ mcols (mt m') = 1%nat /\ forall a, (a < 3)%nat -> mt m' a 0%nat = rnd (mt m a 0%nat).

(** The ids and poses of the rows of a trajectory file. *)
Inductive traj_rows : string -> list string -> list (N * Mx S) -> Prop :=
| tr_nil tok : traj_rows tok [] []
| tr_cons tok l ls id T tok' rows : traj_line F tok l = Ok (id, T, tok') -> traj_rows tok' ls rows ->
    traj_rows tok (l :: ls) ((id, T) :: rows).
Definition pose_block (T : Mx S) (i : nat) (P : Mx S) : Prop :=
  forall a b, (a < 3)%nat -> (b < 4)%nat -> T a (4 * i + b)%nat = P a b.

(** ** g2o *)
Variable G : G2oExt S.

(** The tag a line counts as: its first word, else the tag before. *)
Definition tag_of (prev line : string) : string :=
  match skip_space line with EmptyString => prev | s => fst (cut_space s) end.
Fixpoint tags (prev : string) (ls : list string) : list string :=
  match ls with [] => [] | l :: ls => tag_of prev l :: tags (tag_of prev l) ls end.
Definition is_edge (t : string) : bool := (t =? "EDGE_SE2") || (t =? "EDGE_SE3:QUAT").
Definition is_vertex (t : string) : bool := (t =? "VERTEX_SE2") || (t =? "VERTEX_SE3:QUAT").
Definition blank (l : string) : bool := match skip_space l with EmptyString => true | _ => false end.
(** What every edge of a file has in common; the largest index, as a double. *)
Definition basic (m : Meas S) : Prop :=
  mr1 m = 0%N /\ mr2 m = 0%N /\ mweight m = n1 /\ mfixed m = (u64 (mp1 m + 1) =? mp2 m)%N.
Definition mp (m : Meas S) : N := N.max (to_double (mp1 m)) (to_double (mp2 m)).
Definition largest (ms : list (Meas S)) : N := fold_right (fun m a => N.max (mp m) a) 0%N ms.

(** A word that a scanner reads completely and that is followed by a space or by
    the end. *)
Definition ends (rest : string) : Prop := rest = "" \/ exists r, rest = String " " r.
Definition word {A} (scan : string -> bool * A * string) (w : string) (a : A) : Prop :=
  (exists c w', w = String c w' /\ is_space c = false) /\ has nl w = false /\
  forall rest, ends rest -> scan (w ++ rest) = (true, a, rest).

(** Lines of a well-formed file, and the measurement an edge stands for. *)
Inductive item := IVertex | IEdge2 (i j : N) (v : list S) | IEdge3 (i j : N) (v : list S).
Inductive item_line : item -> string -> Prop :=
| il_vertex l : is_vertex (tag_of "" l) = true -> has nl l = false -> item_line IVertex l
| il_edge2 i j v wi wj ws : word (g_scanU G) wi i -> word (g_scanU G) wj j -> Forall2 (word (g_scanD G)) ws v -> List.length v = 9%nat ->
    item_line (IEdge2 i j v) (String.concat " " ("EDGE_SE2" :: wi :: wj :: ws))
| il_edge3 i j v wi wj ws : word (g_scanU G) wi i -> word (g_scanU G) wj j -> Forall2 (word (g_scanD G)) ws v -> List.length v = 28%nat ->
    item_line (IEdge3 i j v) (String.concat " " ("EDGE_SE3:QUAT" :: wi :: wj :: ws)).
Definition item_ids (it : item) : list N := match it with IVertex => [] | IEdge2 i j _ | IEdge3 i j _ => [i; j] end.

Local Open Scope num_scope.
Definition at_ (v : list S) (k : nat) : S := nth k v n0.
(** dx dy dtheta I11 I12 I13 I22 I23 I33 *)
Definition meas2_of (i j : N) (v : list S) (m : Meas S) : Prop :=
  mr1 m = 0%N /\ mr2 m = 0%N /\ mp1 m = i /\ mp2 m = j /\ mweight m = n1 /\ (mfixed m = true <-> (j = i + 1)%N) /\
  mR m = mlit 2 2 [[g_cos G (at_ v 2); - g_sin G (at_ v 2)]; [g_sin G (at_ v 2); g_cos G (at_ v 2)]] /\
  mt m = mlit 2 1 [[at_ v 0]; [at_ v 1]] /\ mkappa m = at_ v 8 /\ mtau m = nofZ 2 / tr_inv2 (at_ v 3) (at_ v 4) (at_ v 6).
(** dx dy dz qx qy qz qw and the 21 numbers of the upper triangle *)
Definition meas3_of (i j : N) (v : list S) (m : Meas S) : Prop :=
  mr1 m = 0%N /\ mr2 m = 0%N /\ mp1 m = i /\ mp2 m = j /\ mweight m = n1 /\ (mfixed m = true <-> (j = i + 1)%N) /\
  mR m = q_rot (mkQuat (at_ v 3) (at_ v 4) (at_ v 5) (at_ v 6)) /\
  mt m = mlit 3 1 [[at_ v 0]; [at_ v 1]; [at_ v 2]] /\
  mkappa m = nofZ 3 / (nofZ 2 * tr_inv3 (at_ v 22) (at_ v 23) (at_ v 24) (at_ v 25) (at_ v 26) (at_ v 27)) /\
  mtau m = nofZ 3 / tr_inv3 (at_ v 7) (at_ v 8) (at_ v 9) (at_ v 13) (at_ v 14) (at_ v 18).
Inductive items_meas : list item -> list (Meas S) -> Prop :=
| im_nil : items_meas [] []
| im_vertex its ms : items_meas its ms -> items_meas (IVertex :: its) ms
| im_edge2 i j v m its ms : meas2_of i j v m -> items_meas its ms -> items_meas (IEdge2 i j v :: its) (m :: ms)
| im_edge3 i j v m its ms : meas3_of i j v m -> items_meas its ms -> items_meas (IEdge3 i j v :: its) (m :: ms).
End S.

Local Open Scope R_scope.
(** Positive definite, by its quadratic form. *)
Definition pd2 (a b c : R) : Prop := forall x y, (x <> 0 \/ y <> 0) -> 0 < a * x * x + 2 * b * x * y + c * y * y.
Definition pd3 (a b c d e f : R) : Prop := forall x y z, (x <> 0 \/ y <> 0 \/ z <> 0) ->
  0 < a * x * x + 2 * b * x * y + 2 * c * x * z + d * y * y + 2 * e * y * z + f * z * z.
(** Symmetric matrices, inverse to each other. *)
Definition sym2 (a b c : R) (i j : nat) : R := nth j (nth i [[a; b]; [b; c]] []) 0.
Definition sym3 (a b c d e f : R) (i j : nat) : R := nth j (nth i [[a; b; c]; [b; d; e]; [c; e; f]] []) 0.
Definition inverse (n : nat) (A B : nat -> nat -> R) : Prop :=
  forall i j, (i < n)%nat -> (j < n)%nat -> nsum n (fun k => A i k * B k j) = (if (i =? j)%nat then 1 else 0).
