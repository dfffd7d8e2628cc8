(** Concrete schedules: the deadlock, the races, two controlling threads,
    and runs that meet the hypotheses of the thread theorems. *)

From Coq Require Import List Bool Arith Relations Lia.
From Verif Require Import ModelThreads SpecThreads ProofsThreads ProofsThreads2.
Import ListNotations.

Set Implicit Arguments.

Lemma steps_trans s s1 s2 : steps s s1 -> steps s1 s2 -> steps s s2.
Proof. intros H1 H2. induction H2; [exact H1|]. eapply ss_step; eauto. Qed.

Lemma steps_cons s s1 s2 : step s s1 -> steps s1 s2 -> steps s s2.
Proof.
  intros H1 H2. eapply steps_trans; [|exact H2].
  eapply ss_step; [apply ss_refl|exact H1].
Qed.

Lemma spawn_init t s : ptr s = false -> wrk s = WNone ->
  exec t Spawn s (new_worker s (p_round true)).
Proof. apply x_spawn. Qed.

Lemma spawn_idle t s : ptr s = false -> wrk s = WNone ->
  exec t Spawn s (new_worker s (p_round false)).
Proof. apply x_spawn. Qed.

(** Forward execution of a schedule. *)
Ltac fin := cbn; first [reflexivity | discriminate | (left; reflexivity) | (right; cbn; discriminate)].
Ltac go_call who T :=
  eapply steps_cons;
  [eapply st_caller with (i := who); [reflexivity|];
   eapply cs_call; [reflexivity|apply T]|].
Ltac go_do who C :=
  eapply steps_cons;
  [eapply st_caller with (i := who); [reflexivity|];
   eapply cs_do; [reflexivity|apply C; fin]|].
Ltac go_if who :=
  eapply steps_cons;
  [eapply st_caller with (i := who); [reflexivity|];
   eapply cs_if; reflexivity|]; cbn [ptr set_caller].
Ltac wo C :=
  eapply steps_cons;
  [eapply st_worker; [reflexivity|];
   eapply ws_do; [reflexivity|apply C; fin]|].
Ltac wo_break :=
  eapply steps_cons;
  [eapply st_worker; [reflexivity|]; eapply ws_break; reflexivity|].
Ltac stop := apply ss_refl.

(** {1 Deadlock} *)

(** One thread initialises the agent in asynchronous mode and later updates
    the weights with a trajectory reset. *)
Definition dl_calls (i : nat) : list call :=
  match i with
  | O => [CallStart; CallWeightsReset]
  | _ => []
  end.

Lemma deadlock : exists s, steps (boot dl_calls) s /\ stuck s.
Proof.
  eexists. split.
  - unfold boot.
    go_call 0 t_start. go_if 0.
    go_do 0 spawn_init.
    wo x_iter. wo x_read. wo x_lock.
    go_call 0 (t_weightsReset 0 false).
    go_do 0 x_lock.
    stop.
  - split; [reflexivity|]. split; [reflexivity|]. split; [eexists; reflexivity|].
    split; [reflexivity|]. split; [eexists; reflexivity|].
    intros [s' H]. inversion H as [s1 _ W|i s1 _ C]; subst.
    + inversion W as [a k s2 E X|y n E|E R|b E R]; subst; cbn in E; try discriminate.
      injection E as <- <-. inversion X as [l s3 O| | | | | | | | | | ]; subst.
      cbn in O. discriminate.
    + destruct i as [|i]; inversion C as [c r p lst E Tr|a k lst r s2 E X|y n lst r E]; subst;
        cbn in E; try discriminate.
      injection E as <- <- <- <-.
      inversion X as [l s3 O| | | | | | | | | | ]; subst. cbn in O. discriminate.
Qed.

Lemma dl_one : one_controller dl_calls.
Proof. intros [|i] c H; [reflexivity|destruct H]. Qed.

(** Being stuck is the negation of what the progress theorem gives. *)
Lemma stuck_not_live s : stuck s -> ~ live s 0 /\ ~ live s 1.
Proof.
  intros (D & _ & _ & _ & _ & N).
  split; intros (u & _ & _ & M); apply N; destruct u as [|i]; destruct M as [s' M]; exists s'.
  - now apply st_worker. - now apply st_caller with i.
  - now apply st_worker. - now apply st_caller with i.
Qed.

(** {1 A busy system without the inversion} *)

Definition busy_calls (i : nat) : list call :=
  match i with
  | O => [CallStart; CallInitGlobal; CallEnd]
  | 1 => [CallSetX; CallWeights]
  | 2 => [CallReadX; CallClearNbr]
  | _ => []
  end.

Lemma busy_one : one_controller busy_calls.
Proof.
  intros [|[|[|i]]] c H E; try reflexivity; cbn in H;
    repeat (destruct H as [<-|H]; [discriminate|]); destruct H.
Qed.

Lemma busy_nobody : nobody_calls [CallWeightsReset] busy_calls.
Proof.
  intros [|[|[|i]]] c H [E|[]]; subst c; cbn in H;
    repeat (destruct H as [H|H]; [discriminate|]); destruct H.
Qed.

(** The thread waits for the measurement mutex held by caller 1, while
    caller 2 waits for the pose mutex held by the thread. *)
Lemma busy_wait : exists s, steps (boot busy_calls) s /\
  unfinished s 3 /\ waits s 3 0 /\ waits s 0 2.
Proof.
  eexists. split.
  - unfold boot.
    go_call 0 t_start. go_if 0.
    go_do 0 spawn_init.
    go_call 1 t_setX. go_do 1 x_lock. go_do 1 x_write. go_do 1 x_unlock.
    wo x_iter. wo x_read. wo x_lock.
    go_call 1 (t_weights 0 false). go_do 1 x_lock.
    go_call 2 t_readX.
    stop.
  - split; [left; discriminate|].
    split; [apply w_mutex with MPoses|apply w_mutex with MMeas];
      try reflexivity; eexists; reflexivity.
Qed.

(** {1 Stopping} *)

Definition se_calls (i : nat) : list call :=
  match i with O => [CallStart; CallEnd; CallReadX] | _ => [] end.

Lemma se_one : one_controller se_calls.
Proof. intros [|i] c H; [reflexivity|destruct H]. Qed.

(** Start, one round, stop: the call returns, with one round made. *)
Lemma stop_example : exists s, steps (boot se_calls) s /\
  just_returned s CallEnd /\ rounds s = 1 /\ spawned s = 1 /\ todo (callers s 0) = [CallReadX].
Proof.
  eexists. split.
  - unfold boot.
    go_call 0 t_start. go_if 0.
    go_do 0 spawn_idle.
    go_call 0 t_end. go_if 0. go_do 0 x_req.
    wo x_iter. wo_break.
    go_do 0 x_join. go_do 0 x_clear. go_do 0 x_req.
    stop.
  - split; [split; reflexivity|]. auto.
Qed.

(** The request is made before the first round begins; that round is still
    made. *)
Lemma one_more_example : exists s s', steps (boot se_calls) s /\ steps_requested s s' /\
  at_act s 0 Iter /\ rounds s' = rounds s + 1.
Proof.
  eexists. eexists. split; [|split; [|split]].
  - unfold boot.
    go_call 0 t_start. go_if 0.
    go_do 0 spawn_idle.
    go_call 0 t_end. go_if 0. go_do 0 x_req.
    stop.
  - eapply sr_step; [apply sr_refl; reflexivity| |].
    + apply st_worker; [reflexivity|]. eapply ws_do; [reflexivity|apply x_iter].
    + reflexivity.
  - eexists. reflexivity.
  - reflexivity.
Qed.

(** Two threads that both start the optimisation end the process. *)
Definition two_calls (i : nat) : list call :=
  match i with O => [CallStart] | 1 => [CallStart] | _ => [] end.

Lemma two_controllers : exists s, steps (boot two_calls) s /\ dead s = true.
Proof.
  eexists. split.
  - unfold boot.
    go_call 0 t_start. go_if 0.
    go_call 1 t_start. go_if 1.
    go_do 0 spawn_init.
    go_do 1 x_spawn_dead.
    stop.
  - reflexivity.
Qed.

(** {1 Races} *)

(** A weight update reads the neighbour dictionary without its mutex. *)
Definition rn_calls (i : nat) : list call :=
  match i with O => [CallUpdateNbr] | 1 => [CallWeights] | _ => [] end.

Lemma race_nbr : one_controller rn_calls /\
  exists s, steps (boot rn_calls) s /\ race s VNbr.
Proof.
  split.
  { intros [|[|i]] c H E; [reflexivity| |destruct H].
    destruct H as [<-|[]]; discriminate E. }
  eexists. split.
  - unfold boot.
    go_call 0 (t_updateNbr false false true). go_do 0 x_lock.
    go_call 1 (t_weights 1 false). go_do 1 x_lock. go_do 1 x_read.
    stop.
  - exists 1, 2. split; [discriminate|]. split; [eexists; reflexivity|].
    right. eexists. reflexivity.
Qed.

(** The optimisation thread reads X at the head of iterate while the pose
    mutex is held by a writer. *)
Definition rx_calls (i : nat) : list call :=
  match i with O => [CallStart; CallSetX] | _ => [] end.

Lemma race_x : one_controller rx_calls /\
  exists s, steps (boot rx_calls) s /\ race s VX.
Proof.
  split; [intros [|i] c H; [reflexivity|destruct H]|].
  eexists. split.
  - unfold boot.
    go_call 0 t_start. go_if 0.
    go_do 0 spawn_init.
    wo x_iter.
    go_call 0 t_setX. go_do 0 x_lock.
    stop.
  - exists 1, 0. split; [discriminate|]. split; [eexists; reflexivity|].
    right. eexists. reflexivity.
Qed.

(** The request flag is written by the caller while the thread is about to
    test it. *)
Lemma race_flag : exists s, steps (boot se_calls) s /\
  at_act s 1 (SetRequest true) /\ wrk s = WRun Ret.
Proof.
  eexists. split.
  - unfold boot.
    go_call 0 t_start. go_if 0.
    go_do 0 spawn_idle.
    wo x_iter.
    go_call 0 t_end. go_if 0.
    stop.
  - split; [eexists; reflexivity|reflexivity].
Qed.

(** A system in which the dictionary is used by four threads. *)
Definition share_calls (i : nat) : list call :=
  match i with
  | O => [CallStart; CallUpdateNbr; CallEnd]
  | 1 => [CallReadNbr; CallUpdateAuxNbr]
  | 2 => [CallClearNbr; CallSetX]
  | _ => []
  end.

Lemma share_nobody : nobody_calls [CallWeights; CallWeightsReset] share_calls.
Proof.
  intros [|[|[|i]]] c H [E|[E|[]]]; subst c; cbn in H;
    repeat (destruct H as [H|H]; [discriminate|]); destruct H.
Qed.

Definition xonly_calls (i : nat) : list call :=
  match i with
  | O => [CallSetX; CallReadX]
  | 1 => [CallReadX; CallXToInit]
  | _ => []
  end.

Lemma xonly_nobody : nobody_calls x_calls xonly_calls.
Proof.
  intros [|[|i]] c H X; cbn in H; unfold x_calls in X; cbn in X;
    intuition congruence.
Qed.
