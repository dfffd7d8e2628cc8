(** What one call of iterate() computes. *)
From Coq Require Import List NArith ZArith Bool QArith.
From Verif Require Import Base SMap Num ModelTypes ModelPoseGraph ModelPoses ModelSolver ModelAgent SpecPoseGraph SpecAgent
  ProofsIterate ProofsAgentEx ProofsIterateEx.
Import ListNotations.

(** ** C57: the iterates *)
(** Without acceleration: the optimiser runs from X on the stored measurements and
    the received neighbour poses. *)
Theorem C57_plain : forall S (HS : Num S) (x : Ext S) id p os a opt b a' s,
  areach x id p os a -> p_accel p = false -> a_state a = INITIALIZED -> ag_iterate x opt a b = Ok (a', s) ->
  a_XPrev a' = a_X a /\ (b = true -> (s = false <-> missing_pose a (a_ndict a))) /\
  xstep opt a (a_ndict a) b s (a_X a) (a_X a) (a_X a').
Proof. exact @c57_plain. Qed.
Print Assumptions C57_plain.

(** With acceleration: Y = Proj((1-alpha) X + alpha V), X from Y by the optimiser on
    the received auxiliary poses, V = Proj(V + gamma (X' - Y)); at a restart X is
    computed again from the old X on the received poses. *)
Theorem C57_accelerated : forall S (HS : Num S) (x : Ext S) id p os a opt b a' s,
  areach x id p os a -> p_accel p = true -> a_state a = INITIALIZED -> ag_iterate x opt a b = Ok (a', s) ->
  let gm := next_gamma (p_numRobots p) (a_gamma a) in
  let al := next_alpha (p_numRobots p) gm in
  a_XPrev a' = a_X a /\ (b = true -> (s = false <-> missing_pose a (a_naux a))) /\
  exists Y X V,
    projected x a (fun i j => nadd (nmul (nsub n1 al) (pa_X (a_X a) i j)) (nmul al (pa_X (a_V a) i j))) Y /\
    xstep opt a (a_naux a) b s (a_X a) Y X /\
    projected x a (fun i j => nadd (pa_X (a_V a) i j) (nmul gm (nsub (pa_X X i j) (pa_X Y i j)))) V /\
    if (u32 (a_iter a' + 1) mod p_restart p =? 0)%N
    then exists s', xstep opt a (a_ndict a) b s' (a_X a) (a_X a) (a_X a') /\ (b = true -> (s' = false <-> missing_pose a (a_ndict a)))
    else a_Y a' = Y /\ a_X a' = X /\ a_V a' = V.
Proof. exact @c57_accel. Qed.
Print Assumptions C57_accelerated.

(** A restart whose optimisation finds a neighbour pose missing still reports
    success and readiness, with X unchanged. *)
Theorem C57_restart_success_refuted : exists a a', areach zx 1 (zp true) (join ++ [aux; AIterate zopt true; AClearNbr; aux]) a /\
  ag_iterate zx zopt a true = Ok (a', true) /\ missing_pose a (a_ndict a) /\
  a_X a' = a_X a /\ st_ready (a_status a') = true /\ st_change (a_status a') = 0%Q.
Proof. exact restart_silent. Qed.
Print Assumptions C57_restart_success_refuted.

Example C57_example_plain : exists a, areach zx 1 (zp false) join a /\
  (a_state a = INITIALIZED /\ spots (a_X a) = [(3, 0); (4, 0); (5, 0)]%Q /\
   match ag_iterate zx zopt a true with
   | Ok (a', s) => s = true /\ spots (a_X a') = [(6, 0); (8, 0); (10, 0)]%Q
   | _ => False end).
Proof. exact ex_iterate_plain. Qed.

Example C57_example : exists a, areach zx 1 (zp true) (join ++ [aux]) a /\
  (a_state a = INITIALIZED /\ spots (a_X a) = [(3, 0); (4, 0); (5, 0)]%Q /\
   match ag_iterate zx zopt a true with
   | Ok (a', s) => s = true /\ (u32 (a_iter a' + 1) mod p_restart (zp true) =? 0)%N = false /\
       spots (a_Y a') = [(3, 0); (4, 0); (5, 0)]%Q /\ spots (a_X a') = [(6, 0); (8, 0); (10, 0)]%Q /\
       spots (a_V a') = [(9 # 2, 0); (6, 0); (15 # 2, 0)]%Q
   | _ => False end).
Proof. exact ex_iterate. Qed.
