(** Property C38: the momentum parameters. *)
From Coq Require Import List NArith ZArith QArith Reals.
From Verif Require Import Base SMap Num ModelTypes ModelAgent SpecCost SpecAgent SpecFrames ProofsAgentEx ProofsAccel.
Import ListNotations.
Local Open Scope R_scope.

(** The recurrence has exactly one positive solution, computed by the code; it
    grows at least linearly and the step weights stay in (0,1]. *)
Theorem C38_sequence : forall N, (1 <= N < 2147483648)%N ->
  (exists g, gamma_seq N g) /\ forall g, gamma_seq N g ->
  (forall k, g (S k) = next_gamma N (g k)) /\
  (forall k, g k < g (S k)) /\ (forall k, INR k / (2 * IZR (Z.of_N N)) <= g k) /\
  (forall k, next_alpha N (g (S k)) = 1 / (g (S k) * IZR (Z.of_N N)) /\ 0 < next_alpha N (g (S k)) <= 1) /\
  next_alpha N (g 1%nat) = 1.
Proof. exact c38_seq. Qed.
Print Assumptions C38_sequence.

(** Every call keeps both parameters, sets both to zero, or is an iteration of an
    initialised robot and takes one step. *)
Theorem C38_step : forall S (HS : Num S) (x : Ext S) id p os a o a', areach x id p os a -> ag_step x a o = Ok a' ->
  (a_gamma a' = a_gamma a /\ a_alpha a' = a_alpha a) \/ (a_gamma a' = n0 /\ a_alpha a' = n0) \/
  (is_iter (mkEv a o a') = true /\ a_state a = INITIALIZED /\
   a_gamma a' = next_gamma (p_numRobots p) (a_gamma a) /\ a_alpha a' = next_alpha (p_numRobots p) (a_gamma a')).
Proof. exact @c38_step. Qed.
Print Assumptions C38_step.

(** In every reachable state the parameters are those of some number k of steps
    from zero, at most the number of iterations. *)
Theorem C38_state : forall S (HS : Num S) (x : Ext S) id p os a, areach x id p os a ->
  exists k, (N.of_nat k <= SpecAgent.count is_iter (history x id p os))%N /\
    a_gamma a = Nat.iter k (next_gamma (p_numRobots p)) n0 /\
    a_alpha a = match k with O => n0 | _ => next_alpha (p_numRobots p) (a_gamma a) end.
Proof. exact @c38_reach. Qed.
Print Assumptions C38_state.

Theorem C38_state_real : forall (x : Ext R) id p os a, (1 <= p_numRobots p < 2147483648)%N -> areach x id p os a ->
  forall g, gamma_seq (p_numRobots p) g ->
  exists k, (N.of_nat k <= SpecAgent.count is_iter (history x id p os))%N /\ a_gamma a = g k /\
    a_alpha a = match k with O => 0 | _ => 1 / (g k * IZR (Z.of_N (p_numRobots p))) end.
Proof. exact c38_state. Qed.
Print Assumptions C38_state_real.

(** One step from zero for two robots (see also C39_example: then a restart). *)
Example C38_state_example : exists a, areach zx 1 (zp true) (join ++ [aux; AIterate zopt true]) a /\
  (a_gamma a = (1 # 2)%Q /\ a_alpha a = 1%Q /\
   match ag_iterate zx zopt a true with Ok (a', s) => a_iter a' = 2%N /\ a_gamma a' = 0%Q | _ => False end).
Proof. exact ex_restart. Qed.

Example C38_example : gamma_seq 2 (gam 2) /\ gam 2 1 = 1 / 2 /\ gam 2 2 = (1 + sqrt 5) / 4.
Proof. exact c38_two. Qed.

(** The bound on N is needed: [2 * numRobots] is an unsigned product. *)
Theorem C38_wrap_refuted : exists N, (1 <= N < two32)%N /\ next_gamma N (Fin 0) = PInf /\
  next_alpha N (next_gamma N (Fin 0)) = Fin 0.
Proof. exact c38_wrap_ex. Qed.
Print Assumptions C38_wrap_refuted.
