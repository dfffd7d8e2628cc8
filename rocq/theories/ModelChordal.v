(** Matrices of the chordal relaxation.
    Source: constructBMatrices of src/DPGO_utils.cpp. *)
From Coq Require Import List NArith ZArith Bool.
From Verif Require Import Base Num ModelTypes ModelPoseGraph.
Import ListNotations.
Local Open Scope res_scope.

Section Chordal.
Context {S : Type} `{Num S}.

(** DPGO_utils.cpp:382-387: number of poses (1 for no measurement). *)
Definition b_num_poses (ms : list (Meas S)) : N :=
  (fold_left (fun n m => let mp := N.max (mp1 m) (mp2 m) in if n <? mp then mp else n) ms 0 + 1)%N.

(** DPGO_utils.cpp:369-380: rows of B1 for measurement number [e]. *)
Definition b1_entries (d e : nat) (m : Meas S) : list (trip S) :=
  let s := nsqrt (mtau m) in
  flat_map (fun l => [((e * d + l)%nat, (N.to_nat (mp1 m) * d + l)%nat, nopp s);
                      ((e * d + l)%nat, (N.to_nat (mp2 m) * d + l)%nat, s)]) (seq 0 d).

(** DPGO_utils.cpp:396-403: rows of B2. *)
Definition b2_entries (d e : nat) (m : Meas S) : list (trip S) :=
  let s := nsqrt (mtau m) in
  flat_map (fun k => map (fun r => ((d * e + r)%nat, (d * d * N.to_nat (mp1 m) + d * k + r)%nat,
                                    nmul (nopp s) (mt m k 0%nat))) (seq 0 d)) (seq 0 d).

(** DPGO_utils.cpp:412-429: rows of B3. *)
Definition b3_entries (d e : nat) (m : Meas S) : list (trip S) :=
  let s := nsqrt (mkappa m) in
  flat_map (fun r => flat_map (fun c => map (fun l =>
      ((e * (d * d) + d * r + l)%nat, (N.to_nat (mp1 m) * (d * d) + d * c + l)%nat,
       nmul (nopp s) (mR m c r))) (seq 0 d)) (seq 0 d)) (seq 0 d)
  ++ map (fun l => ((e * (d * d) + l)%nat, (N.to_nat (mp2 m) * (d * d) + l)%nat, s)) (seq 0 (d * d)).

(** [resize] followed by [setFromTriplets] (duplicates are added up; an index
    outside the matrix is undefined). *)
Definition from_triplets (rows cols : nat) (ts : list (trip S)) : res (Mx S) :=
  require (in_range rows cols ts) (Ok (mkMx rows cols (spcoef ts))).

(** The coefficients read, [t(k)] and [R(c, r)], must exist. *)
Definition meas_has_dim (d : nat) (m : Meas S) : bool :=
  Nat.eqb (mrows (mR m)) d && Nat.eqb (mcols (mR m)) d && Nat.eqb (mrows (mt m)) d && Nat.eqb (mcols (mt m)) 1.

(** DPGO_utils.cpp:346-433 [constructBMatrices] *)
Definition constructBMatrices (ms : list (Meas S)) : res (Mx S * Mx S * Mx S) :=
  let d := edges_dim ms in
  let n := N.to_nat (b_num_poses ms) in
  let k := length ms in
  require (forallb (meas_has_dim d) ms) (
  do B1 <- from_triplets (d * k) (d * n) (enum 0 (b1_entries d) ms);
  do B2 <- from_triplets (d * k) (d * d * n) (enum 0 (b2_entries d) ms);
  do B3 <- from_triplets (d * d * k) (d * d * n) (enum 0 (b3_entries d) ms);
  Ok (B1, B2, B3)).
End Chordal.
