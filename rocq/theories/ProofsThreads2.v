(** Progress, order of acquisition, stopping the thread, races. *)

From Coq Require Import List Bool Arith Relations Lia.
From Verif Require Import ModelThreads SpecThreads ProofsThreads.
Import ListNotations.

Set Implicit Arguments.

(** {1 Progress} *)

Lemma call_has_trace c : exists p, trace c p.
Proof.
  destruct c; eexists;
    first [ apply t_setX | apply t_xinit | apply t_readX | apply t_addMeas
          | apply t_setWeight | apply t_init_early | apply (t_initGlobal false)
          | apply (t_iterate true) | apply (t_reset false false) | apply t_updateNbr_early
          | apply t_updateAux | apply t_clear | apply t_readNbr | apply (t_weights 0 false)
          | apply (t_weightsReset 0 false) | apply t_initRobust | apply t_anchor
          | apply t_start | apply t_end | apply t_noLock ].
Qed.

Lemma caller_eta c : c = mkCaller (cur c) (last c) (todo c).
Proof. now destruct c. Qed.

Section Progress.
Variable s : sys.
Hypothesis alive : dead s = false.

(** A step that waits for nothing. *)
Definition free (t : nat) (a : act) : Prop :=
  match a with
  | Lock l => owner s l = None
  | Unlock l => owner s l = Some t
  | Join => wrk s = WDone
  | _ => True
  end.

Lemma caller_moves i a k :
  cur (callers s i) = Do a k -> free (S i) a -> can_move s (S i).
Proof.
  intros E F. split; [exact alive|]. cbn.
  pose proof (caller_eta (callers s i)) as Ec. rewrite E in Ec.
  set (s1 := set_caller s i (mkCaller k (last (callers s i)) (todo (callers s i)))).
  assert (X : exists s2, exec (S i) a s1 s2).
  { destruct a as [l|l|v|v| | |b| | ]; cbn in F.
    - eexists. now apply x_lock.
    - eexists. now apply x_unlock.
    - eexists. apply x_read.
    - eexists. apply x_write.
    - eexists. apply x_iter.
    - destruct (ptr s) eqn:Ep; [eexists; apply x_spawn_dead; now left|].
      destruct (wrk s) eqn:Ew.
      + exists (new_worker s1 (p_round true)). now apply x_spawn.
      + eexists. apply x_spawn_dead. right. cbn. rewrite Ew. discriminate.
      + eexists. apply x_spawn_dead. right. cbn. rewrite Ew. discriminate.
    - eexists. apply x_req.
    - eexists. now apply x_join.
    - destruct (wrk s) eqn:Ew.
      + eexists. now apply x_clear.
      + eexists. apply x_clear_dead. cbn. rewrite Ew. discriminate.
      + eexists. apply x_clear_dead. cbn. rewrite Ew. discriminate. }
  destruct X as [s2 X]. exists s2. eapply cs_do; [exact Ec|exact X].
Qed.

Lemma worker_moves a k :
  wrk s = WRun (Do a k) -> free 0 a -> can_move s 0.
Proof.
  intros E F. split; [exact alive|]. cbn.
  set (s1 := set_wrk s (WRun k)).
  assert (X : exists s2, exec 0 a s1 s2).
  { destruct a as [l|l|v|v| | |b| | ]; cbn in F.
    - eexists. now apply x_lock.
    - eexists. now apply x_unlock.
    - eexists. apply x_read.
    - eexists. apply x_write.
    - eexists. apply x_iter.
    - eexists. apply x_spawn_dead. right. discriminate.
    - eexists. apply x_req.
    - rewrite E in F. discriminate.
    - eexists. apply x_clear_dead. discriminate. }
  destruct X as [s2 X]. exists s2. eapply ws_do; [exact E|exact X].
Qed.

Lemma thread_moves t a k :
  thread_prog s t = Some (Do a k) -> free t a -> can_move s t.
Proof.
  destruct t as [|i]; cbn [thread_prog].
  - destruct (wrk s) eqn:E; try discriminate. intros H. injection H as ->.
    now apply worker_moves with (k := k).
  - intros H. injection H as E. now apply caller_moves with (k := k).
Qed.

Lemma thread_if_moves t y n :
  thread_prog s t = Some (IfRunning y n) -> can_move s t.
Proof.
  intros H. split; [exact alive|].
  destruct t as [|i]; cbn [thread_prog] in H.
  - destruct (wrk s) eqn:E; try discriminate. injection H as ->.
    eexists. apply ws_if with (1 := E).
  - injection H as E. pose proof (caller_eta (callers s i)) as Ec. rewrite E in Ec.
    eexists. apply cs_if with (1 := Ec).
Qed.

Lemma live_self t : can_move s t -> live s t.
Proof. intros H. exists t. split; [apply rt_refl|exact H]. Qed.

Lemma live_waits t u : waits s t u -> live s u -> live s t.
Proof.
  intros W (v & C & M). exists v. split; [|exact M].
  apply rt_trans with u; [now apply rt_step|exact C].
Qed.

Variable calls : nat -> list call.
Hypothesis A : invA ochk calls True s.

Lemma thread_safe t p :
  thread_prog s t = Some p -> safe ochk (held s t) p (eq none).
Proof.
  destruct A as (HC & HW & _).
  destruct t as [|i]; cbn [thread_prog].
  - destruct (wrk s) eqn:E; try discriminate. intros H. injection H as <-. apply HW.
  - intros H. injection H as <-. apply HC.
Qed.

Lemma no_prog_none t : thread_prog s t = None -> held s t = none.
Proof.
  destruct A as (HC & HW & _).
  destruct t as [|i]; cbn [thread_prog]; [|discriminate].
  destruct (wrk s); try discriminate; auto.
Qed.

Lemma own_owner l t : own s l t = true <-> owner s l = Some t.
Proof.
  unfold own. destruct (owner s l) as [u|]; [|split; discriminate].
  rewrite Nat.eqb_eq. split; congruence.
Qed.

Lemma own_held l t : owner s l = Some t -> get (held s t) l = true.
Proof. rewrite get_held. apply own_owner. Qed.

Lemma get_none l : get none l = false.
Proof. now destruct l. Qed.

(** Acquisitions are above what is held. *)
Lemma ochk_above h l l' :
  ochk h (Lock l') -> get h l = true -> rank l < rank l'.
Proof.
  unfold none; destruct h as [[[] []] []], l, l'; cbn; unfold none; try lia;
    intros H G; try discriminate; destruct H; discriminate.
Qed.

Lemma holder_live n : forall l t,
  3 <= rank l + n -> owner s l = Some t -> live s t.
Proof.
  induction n as [|n IH]; intros l t R Ow.
  - destruct l; cbn in R; lia.
  - pose proof (own_held _ Ow) as G.
    destruct (thread_prog s t) as [p|] eqn:Ep.
    2: { rewrite (no_prog_none _ Ep), get_none in G. discriminate. }
    pose proof (thread_safe _ Ep) as Sf.
    destruct p as [|a k|y z]; cbn in Sf.
    + rewrite <- Sf, get_none in G. discriminate.
    + destruct Sf as [Ck _].
      destruct a as [l'|l'|v|v| | |b| | ];
        try (apply live_self, (thread_moves _ Ep); exact I).
      * pose proof (@ochk_above _ l l' Ck G) as Rk.
        destruct (owner s l') as [u|] eqn:Eo.
        -- apply live_waits with u.
           ++ apply w_mutex with l'; [now exists k|exact Eo].
           ++ apply IH with l'; [lia|exact Eo].
        -- apply live_self, (thread_moves _ Ep). exact Eo.
      * apply live_self, (thread_moves _ Ep). apply own_owner.
        rewrite <- get_held. exact Ck.
      * cbn in Ck. rewrite Ck, get_none in G. discriminate.
    + apply live_self, (thread_if_moves _ Ep).
Qed.

Lemma lock_live t l k : thread_prog s t = Some (Do (Lock l) k) -> live s t.
Proof.
  intros Ep. destruct (owner s l) as [u|] eqn:Eo.
  - apply live_waits with u.
    + apply w_mutex with l; [now exists k|exact Eo].
    + apply holder_live with (n := 3) (l := l); [lia|exact Eo].
  - apply live_self, (thread_moves _ Ep). exact Eo.
Qed.

Lemma not_join_live t a k :
  thread_prog s t = Some (Do a k) -> a <> Join -> live s t.
Proof.
  intros Ep N.
  destruct a as [l'|l'|v|v| | |b| | ];
    try (apply live_self, (thread_moves _ Ep); exact I).
  - now apply lock_live with (1 := Ep).
  - apply live_self, (thread_moves _ Ep).
    pose proof (thread_safe _ Ep) as [Ck _]. apply own_owner.
    rewrite <- get_held. exact Ck.
  - congruence.
Qed.

Hypothesis B : invB calls s.

Lemma worker_live : unfinished s 0 -> live s 0.
Proof.
  intros [p E]. destruct B as (_ & _ & _ & W & _). rewrite E in W. destruct W as (W & _).
  destruct p as [|a k|y n].
  - apply live_self. split; [exact alive|]. cbn.
    destruct (req s) eqn:R.
    + eexists. now apply ws_break.
    + exists (set_wrk s (WRun (p_round true))). now apply ws_again.
  - apply not_join_live with (a := a) (k := k).
    + cbn. now rewrite E.
    + intros ->. discriminate W.
  - discriminate W.
Qed.

Lemma progress t : unfinished s t -> live s t.
Proof.
  destruct t as [|i]; [apply worker_live|].
  intros U. cbn in U.
  destruct (cur (callers s i)) as [|a k|y n] eqn:Ec.
  - destruct U as [U|U]; [congruence|].
    destruct (todo (callers s i)) as [|c r] eqn:Et; [congruence|].
    destruct (call_has_trace c) as [p T].
    apply live_self. split; [exact alive|]. cbn.
    eexists. eapply cs_call; [|exact T].
    rewrite (caller_eta (callers s i)), Ec, Et. reflexivity.
  - assert (D : {a = Join} + {a <> Join}) by (destruct a; (now left) || (right; discriminate)).
    destruct D as [->|N].
    2: { apply not_join_live with (a := a) (k := k); [cbn; now rewrite Ec|exact N]. }
    destruct B as (_ & (ph & P & C) & Q & _ & _).
    destruct i as [|i].
    2: { specialize (Q i). rewrite Ec in Q. discriminate Q. }
    rewrite Ec in C. cbn in C. destruct ph as [[]| | | ]; try contradiction.
    destruct P as (_ & _ & [W|[p W]]).
    + apply live_self. apply caller_moves with (1 := Ec). exact W.
    + apply live_waits with 0.
      * apply w_join; [exists k; cbn; now rewrite Ec|reflexivity|rewrite W; discriminate].
      * apply worker_live. now exists p.
  - apply live_self, thread_if_moves with (y := y) (n := n). cbn. now rewrite Ec.
Qed.

End Progress.

Lemma progress_reach calls s t :
  one_controller calls -> nobody_calls [CallWeightsReset] calls ->
  steps (boot calls) s -> unfinished s t -> live s t.
Proof.
  intros OC NB St U.
  assert (A : invA ochk calls True s).
  { apply invA_reach; auto.
    - intros i c p Hin T. apply call_ordered with (c := c); [|exact T].
      intros ->. apply (NB i _ Hin). now left.
    - intros _ b. apply round_ordered. }
  pose proof (invB_reach OC St) as B.
  exact (progress (proj1 B) A B t U).
Qed.

(** {1 Order of acquisition along a path} *)

Definition hafter (l : list act) : h3 := fold_left eff l none.

Lemma hafter_snoc l a : hafter (l ++ [a]) = eff (hafter l) a.
Proof. unfold hafter. now rewrite fold_left_app. Qed.

Lemma get_put_same h l b : get (put h l b) l = b.
Proof. destruct h as [[x y] z], l; reflexivity. Qed.

Lemma get_put_other h l m b : m <> l -> get (put h l b) m = get h m.
Proof. destruct h as [[x y] z], l, m; try congruence; reflexivity. Qed.

Lemma mutex_dec (a b : mutex) : {a = b} + {a <> b}.
Proof. decide equality. Qed.

Lemma held_after_snoc l a m :
  held_after (l ++ [a]) m <-> a = Lock m \/ (held_after l m /\ a <> Unlock m).
Proof.
  split.
  - intros (l1 & l2 & E & N).
    destruct (exists_last (l := Lock m :: l2)) as (l2' & x & E2); [discriminate|].
    rewrite E2, app_assoc in E. apply app_inj_tail in E. destruct E as [E <-].
    destruct l2' as [|y l2'].
    + left. injection E2 as <-. reflexivity.
    + right. injection E2 as <- E2. split.
      * exists l1, l2'. split; [exact E|]. intros H. apply N. rewrite E2. apply in_or_app. now left.
      * intros ->. apply N. rewrite E2. apply in_or_app. right. now left.
  - intros [->|[(l1 & l2 & -> & N) Na]].
    + exists l, []. split; [reflexivity|]. intros [].
    + exists l1, (l2 ++ [a]). split; [now rewrite <- app_assoc|].
      intros H. apply in_app_or in H. destruct H as [H|[->|[]]]; auto.
Qed.

Lemma hafter_spec l m : get (hafter l) m = true <-> held_after l m.
Proof.
  induction l as [|a l IH] using rev_ind.
  - change (hafter []) with none. rewrite get_none. split; [discriminate|].
    intros (l1 & l2 & E & _). destruct l1; discriminate.
  - rewrite hafter_snoc, held_after_snoc, <- IH.
    destruct a as [l'|l'|v|v| | |b| | ]; cbn [eff];
      try (split; [intros H; right; split; [exact H|discriminate]
                  |intros [H|[H _]]; [discriminate|exact H]]).
    + destruct (mutex_dec m l') as [->|N].
      * rewrite get_put_same. split; auto.
      * rewrite get_put_other by exact N. split.
        -- intros H. right. split; [exact H|discriminate].
        -- intros [H|[H _]]; [congruence|exact H].
    + destruct (mutex_dec m l') as [->|N].
      * rewrite get_put_same. split; [discriminate|]. intros [H|[_ H]]; congruence.
      * rewrite get_put_other by exact N. split.
        -- intros H. right. split; [exact H|congruence].
        -- intros [H|[H _]]; [discriminate|exact H].
Qed.

Lemma safe_path chk p l : path p l -> forall h post, safe chk h p post ->
  post (fold_left eff l h) /\
  forall pre a q, l = pre ++ a :: q -> chk (fold_left eff pre h) a.
Proof.
  induction 1 as [|a k l P IH|y n l P IH|y n l P IH]; intros h post Sf; cbn in Sf.
  - split; [exact Sf|]. intros pre a q E. destruct pre; discriminate.
  - destruct Sf as [Ck Sf]. destruct (IH _ _ Sf) as [I1 I2]. split; [exact I1|].
    intros [|b pre] a' q E; cbn in E; injection E as -> E.
    + exact Ck.
    + cbn. apply I2 with q. exact E.
  - apply IH. tauto.
  - apply IH. tauto.
Qed.

Lemma order_holds c p l :
  c <> CallWeightsReset -> trace c p -> path p l -> in_order l.
Proof.
  intros N T P.
  destruct (safe_path _ P _ _ (call_ordered N T)) as [E Ck].
  split; [|split].
  - intros pre m post El m' H. apply hafter_spec in H.
    apply ochk_above with (h := hafter pre); [|exact H]. apply Ck with post. exact El.
  - intros pre post m El H. apply hafter_spec in H.
    specialize (Ck _ _ _ El). cbn in Ck. fold (hafter pre) in Ck.
    rewrite Ck, get_none in H. discriminate.
  - intros m H. apply hafter_spec in H. unfold hafter in H.
    rewrite <- E, get_none in H. discriminate.
Qed.

Lemma round_order b l : path (p_round b) l -> in_order l.
Proof.
  intros P.
  destruct (safe_path _ P _ _ (round_ordered b)) as [E Ck].
  split; [|split].
  - intros pre m post El m' H. apply hafter_spec in H.
    apply ochk_above with (h := hafter pre); [|exact H]. apply Ck with post. exact El.
  - intros pre post m El H. apply hafter_spec in H.
    specialize (Ck _ _ _ El). cbn in Ck. fold (hafter pre) in Ck.
    rewrite Ck, get_none in H. discriminate.
  - intros m H. apply hafter_spec in H. unfold hafter in H.
    rewrite <- E, get_none in H. discriminate.
Qed.

Lemma order_refuted :
  exists p l, trace CallWeightsReset p /\ path p l /\
    exists pre post, l = pre ++ Lock MPoses :: post /\ held_after pre MMeas.
Proof.
  exists (p_weights 0 true false).
  exists [Lock MMeas; Lock MPoses; Write VX; Unlock MPoses;
          Lock MNbr; Write VNbr; Unlock MNbr; Unlock MMeas].
  split; [constructor|]. split; [cbn; repeat constructor|].
  exists [Lock MMeas]. eexists. split; [reflexivity|].
  exists [], []. split; [reflexivity|]. intros [].
Qed.

(** {1 Stopping the thread} *)

Lemma never_dead calls s :
  one_controller calls -> steps (boot calls) s -> dead s = false.
Proof. intros OC St. exact (proj1 (invB_reach OC St)). Qed.

Lemma phase_at_rest calls s :
  one_controller calls -> steps (boot calls) s -> cur (callers s 0) = Ret ->
  exists b, phase_ok (Idle b) s /\
    match last (callers s 0) with
    | None | Some CallEnd | Some CallReset => b = false
    | Some CallStart => b = true
    | _ => True
    end.
Proof.
  intros OC St E. destruct (invB_reach OC St) as (_ & (ph & P & C) & _).
  rewrite E in C. cbn in C. destruct ph as [b| | | ]; try contradiction. eauto.
Qed.

Lemma stopped calls s c :
  one_controller calls -> steps (boot calls) s ->
  c = CallEnd \/ c = CallReset -> just_returned s c ->
  wrk s = WNone /\ ptr s = false /\ req s = false /\ spawned s <= rounds s.
Proof.
  intros OC St Hc [E1 E2].
  destruct (phase_at_rest OC St E1) as (b & P & L). rewrite E2 in L.
  assert (b = false) as -> by (destruct Hc as [->| ->]; exact L).
  destruct P as (P1 & P2 & P3). repeat split; auto.
  destruct (invB_reach OC St) as (_ & _ & _ & W & _). now rewrite P3 in W.
Qed.

Lemma running_iff calls s :
  one_controller calls -> steps (boot calls) s -> cur (callers s 0) = Ret ->
  (ptr s = true <-> unfinished s 0).
Proof.
  intros OC St E. destruct (phase_at_rest OC St E) as ([] & P & _); cbn in P |- *.
  - destruct P as (-> & _ & W). tauto.
  - destruct P as (-> & _ & W). rewrite W. split; [discriminate|]. intros [p H]. discriminate.
Qed.

(** Programs that never start the thread when none is running. *)
Fixpoint calm (p : prog) : bool :=
  match p with
  | Ret => true
  | Do a k =>
      match a with
      | Spawn | SetRequest _ | Join | ClearPtr | Iter => false
      | _ => calm k
      end
  | IfRunning _ n => calm n
  end.

Lemma quiet_calm p : quiet p = true -> calm p = true.
Proof.
  induction p as [|a k IH|y IHy n IHn]; cbn; intros H; try discriminate; auto.
  destruct a; try discriminate; auto.
Qed.

Lemma trace_calm c p : c <> CallStart -> c <> CallInitialize -> trace c p -> calm p = true.
Proof.
  intros N1 N2 T. destruct (controls c) eqn:Ec.
  - destruct T; try discriminate Ec; try congruence;
      repeat match goal with b : bool |- _ => destruct b end; reflexivity.
  - apply quiet_calm. now apply trace_quiet with (c := c).
Qed.

Definition invC (r0 : nat) (s : sys) : Prop :=
  ptr s = false /\ wrk s = WNone /\ rounds s = r0 /\
  calm (cur (callers s 0)) = true /\
  (forall c, In c (todo (callers s 0)) -> c <> CallStart /\ c <> CallInitialize).

Lemma invC_step calls r0 s s' :
  one_controller calls -> invB calls s -> invC r0 s -> step s s' -> invC r0 s'.
Proof.
  intros OC B (Pp & Pw & Pr & Pc & Pt) [s1 _ Hs|i s1 _ Hs].
  - exfalso. destruct Hs; congruence.
  - destruct Hs as [c r p lst E Tr|a k lst r s2 E X|y n lst r E].
    + split; [exact Pp|]. split; [exact Pw|]. split; [exact Pr|].
      cbn [set_caller callers]. destruct i as [|i].
      * rewrite upd_same. cbn. rewrite E in Pt. cbn in Pt. split.
        -- destruct (Pt c) as [N1 N2]; [now left|]. now apply trace_calm with (c := c).
        -- intros c' H. apply Pt. now right.
      * rewrite upd_other by discriminate. auto.
    + assert (Q : match a with Spawn | SetRequest _ | Join | ClearPtr | Iter => False | _ => True end
                  /\ (i = 0 -> calm k = true)).
      { destruct i as [|i].
        - rewrite E in Pc. cbn in Pc. destruct a; try discriminate Pc; auto.
        - destruct B as (_ & _ & HQ & _). specialize (HQ i). rewrite E in HQ. cbn in HQ.
          destruct a; try discriminate HQ; split; auto; discriminate. }
      destruct Q as [Q1 Q2].
      destruct (exec_quiet X Q1) as (E1 & E2 & E3 & E4 & E5 & E6 & E7).
      unfold invC. rewrite E1, E3, E4, E7. cbn [set_caller ptr wrk rounds callers].
      split; [exact Pp|]. split; [exact Pw|]. split; [exact Pr|].
      destruct i as [|i].
      * rewrite upd_same. cbn. split; [now apply Q2|]. rewrite E in Pt. exact Pt.
      * rewrite upd_other by discriminate. auto.
    + split; [exact Pp|]. split; [exact Pw|]. split; [exact Pr|].
      cbn [set_caller callers]. destruct i as [|i].
      * rewrite upd_same. cbn. rewrite E in Pc, Pt. cbn in Pc, Pt. rewrite Pp. auto.
      * rewrite upd_other by discriminate. auto.
Qed.

Lemma quiet_after calls s s' :
  one_controller calls -> steps (boot calls) s -> cur (callers s 0) = Ret ->
  ptr s = false ->
  (forall c, In c (todo (callers s 0)) -> c <> CallStart /\ c <> CallInitialize) ->
  steps s s' -> wrk s' = WNone /\ ptr s' = false /\ rounds s' = rounds s.
Proof.
  intros OC St E Ep Ht S2.
  assert (H : invC (rounds s) s' /\ invB calls s').
  { induction S2 as [|s1 s2 S2 IH Hs].
    - destruct (phase_at_rest OC St E) as (b & P & _).
      split; [|now apply invB_reach].
      destruct b; cbn in P; [destruct P; congruence|].
      destruct P as (P1 & P2 & P3). repeat split; auto; try now rewrite E.
      + now apply Ht.
      + now apply Ht.
    - destruct IH as [I1 I2]. split; [exact (invC_step OC I2 I1 Hs)|exact (invB_step OC I2 Hs)]. }
  destruct H as [(H1 & H2 & H3 & _) _]. auto.
Qed.

(** The program of the optimisation thread is a fresh round or has passed
    the entry into iterate. *)
Definition invW (s : sys) : Prop :=
  forall p, wrk s = WRun p -> quiet p = true \/ exists b, p = p_round b.

Lemma invW_step s s' : invW s -> step s s' -> invW s'.
Proof.
  intros W [s1 _ Hs|i s1 _ Hs].
  - destruct Hs as [a k s2 E X|y n E|E R|b E R].
    + assert (Q : quiet k = true /\
                  match a with Spawn | SetRequest _ | Join | ClearPtr => False | _ => True end).
      { destruct (W _ E) as [Q|[b Q]].
        - cbn in Q. destruct a; try discriminate Q; auto.
        - destruct (round_quiet_tail b) as (k' & Ek & Qk). rewrite Ek in Q.
          injection Q as -> ->. auto. }
      destruct Q as [Q1 Q2].
      intros p Ep. left.
      destruct (exec_effect X) as (_ & _ & _ & [H|[(H & _)|(H & _)]]); cbn in H; try discriminate.
      rewrite H in Ep. now injection Ep as <-.
    + destruct (W _ E) as [Q|[b Q]]; [discriminate Q|destruct b; discriminate Q].
    + intros p Ep. discriminate Ep.
    + intros p Ep. injection Ep as <-. right. now exists b.
  - destruct Hs as [c r p lst E Tr|a k lst r s2 E X|y n lst r E]; try exact W.
    destruct (exec_effect X) as (_ & _ & _ & [H|[(_ & _ & b & H)|(_ & H)]]); cbn in H;
      intros p Ep; rewrite H in Ep.
    + now apply W.
    + injection Ep as <-. right. now exists b.
    + discriminate.
Qed.

Lemma invW_reach calls s : steps (boot calls) s -> invW s.
Proof.
  induction 1 as [|s1 s2 _ IH Hs]; [intros p H; discriminate|].
  exact (invW_step IH Hs).
Qed.

(** Entries into iterate still possible without another test of the flag. *)
Definition left_ (s : sys) : nat := match wrk s with WRun p => iters_left p | _ => 0 end.

Lemma requested_step calls s s' :
  invB calls s -> req s = true -> step s s' ->
  rounds s' + left_ s' <= rounds s + left_ s.
Proof.
  intros (_ & (ph & HP & HC) & HQ & HW & _) R [s1 _ Hs|i s1 _ Hs].
  - destruct Hs as [a k s2 E X|y n E|E R'|b E R'].
    + rewrite E in HW. destruct HW as (W1 & _).
      remember (set_wrk s (WRun k)) as s1 eqn:Es1.
      destruct X; subst; cbn in W1; try discriminate W1;
        unfold left_; cbn; rewrite E; cbn; lia.
    + rewrite E in HW. destruct HW as (W1 & _). discriminate W1.
    + unfold left_. cbn. rewrite E. cbn. lia.
    + congruence.
  - destruct Hs as [c r p lst E Tr|a k lst r s2 E X|y n lst r E];
      try (unfold left_; cbn; lia).
    assert (Q : match a with Spawn | Iter => False | _ => True end).
    { destruct i as [|i].
      - rewrite E in HC. cbn in HC. destruct a; auto.
        destruct ph as [[]| | | ]; try contradiction.
        destruct HP as (_ & H & _). congruence.
      - specialize (HQ i). rewrite E in HQ. cbn in HQ. destruct a; auto; discriminate HQ. }
    remember (set_caller s i (mkCaller k lst r)) as s1 eqn:Es1.
    destruct X; subst; try contradiction; unfold left_; cbn; try lia.
Qed.

Lemma requested_rounds calls s s' :
  one_controller calls -> steps (boot calls) s -> steps_requested s s' ->
  rounds s' + left_ s' <= rounds s + left_ s /\ steps (boot calls) s' /\ req s' = true.
Proof.
  intros OC St H. induction H as [R|s1 s2 H IH Hs R].
  - auto.
  - destruct IH as (I1 & I2 & I3). split; [|split; [eapply ss_step; eauto|exact R]].
    pose proof (requested_step (invB_reach OC I2) I3 Hs). lia.
Qed.

Lemma at_most_one_more calls s s' :
  one_controller calls -> steps (boot calls) s -> steps_requested s s' ->
  rounds s' <= rounds s + 1 /\ (~ at_act s 0 Iter -> rounds s' <= rounds s).
Proof.
  intros OC St H.
  destruct (requested_rounds OC St H) as (H1 & _ & _).
  assert (L : left_ s <= 1 /\ (~ at_act s 0 Iter -> left_ s = 0)).
  { unfold left_. destruct (wrk s) as [|p|] eqn:E; try (split; [lia|auto]; fail).
    destruct (invW_reach St E) as [Q|[b ->]].
    - assert (Z : iters_left p = 0).
      { clear - Q. induction p as [|a k IH|y IHy n IHn]; cbn in *; try discriminate; auto.
        destruct a; try discriminate; auto. }
      rewrite Z. auto.
    - destruct (round_facts b) as [_ ->]. split; [lia|].
      intros N. exfalso. apply N. destruct (round_quiet_tail b) as (k & Ek & _).
      exists k. cbn. rewrite E. now rewrite Ek. }
  destruct L as [L1 L2]. split; [lia|]. intros N. specialize (L2 N). lia.
Qed.

(** {2 The thread ends after a bounded number of its own steps} *)

Fixpoint size (p : prog) : nat :=
  match p with
  | Ret => 1
  | Do _ k => S (size k)
  | IfRunning y n => S (Nat.max (size y) (size n))
  end.

Definition wsize (s : sys) : nat := match wrk s with WRun p => size p | _ => 0 end.

Lemma worker_req s s' : worker_step s s' -> invW s -> req s' = req s.
Proof.
  intros H W. destruct H as [a k s2 E X|y n E|E R|b E R]; try reflexivity.
  destruct (W _ E) as [Q|[b Q]].
  - cbn in Q. remember (set_wrk s (WRun k)) as s1 eqn:Es1.
    destruct X; subst; try discriminate Q; reflexivity.
  - destruct (round_quiet_tail b) as (k' & Ek & _). rewrite Ek in Q. injection Q as -> ->.
    remember (set_wrk s (WRun k')) as s1 eqn:Es1. inversion X; subst; reflexivity.
Qed.

Lemma worker_shrinks s s' :
  worker_step s s' -> req s = true -> wsize s' < wsize s.
Proof.
  intros H R. unfold wsize. destruct H as [a k s2 E X|y n E|E R'|b E R'].
  - destruct (exec_effect X) as (_ & _ & _ & [H|[(H & _)|(H & _)]]); cbn in H; try discriminate.
    rewrite H, E. cbn. lia.
  - cbn. rewrite E. cbn. destruct (ptr s); lia.
  - cbn. rewrite E. cbn. lia.
  - congruence.
Qed.

Lemma caller_shrinks calls i s s' :
  invB calls s -> caller_step i s s' -> req s = true -> wsize s' <= wsize s.
Proof.
  intros (_ & (ph & HP & HC) & HQ & _) H R. unfold wsize.
  destruct H as [c r p lst E Tr|a k lst r s2 E X|y n lst r E]; cbn; auto.
  destruct (exec_effect X) as (_ & _ & _ & [H|[(H & Ha & _)|(_ & H)]]); cbn in H.
  - rewrite H. auto.
  - exfalso. subst a. destruct i as [|i].
    + rewrite E in HC. cbn in HC. destruct ph as [[]| | | ]; try contradiction.
      destruct HP as (_ & H' & _). congruence.
    + specialize (HQ i). rewrite E in HQ. discriminate HQ.
  - rewrite H. lia.
Qed.

Lemma round_size b : size (p_round b) <= 13.
Proof. destruct b; cbn; lia. Qed.

Lemma invW_size calls s : steps (boot calls) s -> wsize s <= 13.
Proof.
  induction 1 as [|s1 s2 St IH Hs]; [cbn; lia|].
  destruct Hs as [s2 _ Hs|i s2 _ Hs].
  - unfold wsize in *. destruct Hs as [a k s2 E X|y n E|E R|b E R].
    + destruct (exec_effect X) as (_ & _ & _ & [H|[(H & _)|(H & _)]]); cbn in H; try discriminate.
      rewrite E in IH. rewrite H. cbn in IH. lia.
    + rewrite E in IH. cbn in IH |- *. destruct (ptr s1); lia.
    + cbn. lia.
    + cbn [set_wrk wrk]. apply round_size.
  - unfold wsize in *. destruct Hs as [c r p lst E Tr|a k lst r s2 E X|y n lst r E]; auto.
    destruct (exec_effect X) as (_ & _ & _ & [H|[(_ & _ & b & H)|(_ & H)]]); cbn in H; rewrite H.
    + exact IH.
    + apply round_size.
    + lia.
Qed.

Lemma requested_bound calls s n s' :
  one_controller calls -> steps (boot calls) s -> requested_run s n s' -> n <= 13.
Proof.
  intros OC St H.
  assert (G : n + wsize s' <= wsize s /\ steps (boot calls) s' /\ req s' = true).
  { induction H as [R|n s1 s2 H IH D Hs|n i s1 s2 H IH D Hs R].
    - auto.
    - destruct IH as (I1 & I2 & I3).
      assert (R2 : req s2 = true) by (rewrite (worker_req Hs (invW_reach I2)); exact I3).
      split; [|split; [|exact R2]].
      + pose proof (worker_shrinks Hs I3). lia.
      + eapply ss_step; [exact I2|]. now apply st_worker.
    - destruct IH as (I1 & I2 & I3). split; [|split; [|exact R]].
      + pose proof (caller_shrinks (invB_reach OC I2) Hs I3). lia.
      + eapply ss_step; [exact I2|]. now apply st_caller with i. }
  pose proof (invW_size St). lia.
Qed.

(** {1 Races} *)

(** Accesses to [v] only with [g] held. *)
Definition vchk (v : var) (g : mutex) (spawn : Prop) (h : h3) (a : act) : Prop :=
  match a with
  | Read v' | Write v' => v' = v -> get h g = true
  | Spawn => spawn
  | _ => True
  end.

Lemma no_race v g spawn calls s :
  invA (vchk v g spawn) calls spawn s -> ~ race s v.
Proof.
  intros A (t & u & N & (kt & Wt) & U).
  assert (P : forall x a k, thread_prog s x = Some (Do a k) -> a = Write v \/ a = Read v ->
                owner s g = Some x).
  { intros x a k E Ha.
    assert (Sf : safe (vchk v g spawn) (held s x) (Do a k) (eq none)).
    { destruct A as (HC & HW & _). destruct x as [|i]; cbn [thread_prog] in E.
      - destruct (wrk s); try discriminate. injection E as ->. apply HW.
      - injection E as <-. apply HC. }
    destruct Sf as [Ck _].
    assert (G : get (held s x) g = true) by (destruct Ha; subst a; apply Ck; reflexivity).
    rewrite get_held in G. now apply own_owner. }
  assert (O1 : owner s g = Some t) by (apply (P _ _ _ Wt); auto).
  assert (O2 : owner s g = Some u).
  { destruct U as [(ku & U)|(ku & U)]; apply (P _ _ _ U); auto. }
  congruence.
Qed.

Lemma nbr_covered c p :
  ~ In c [CallWeights; CallWeightsReset] -> trace c p ->
  safe (vchk VNbr MNbr True) none p (eq none).
Proof.
  intros N T. destruct T;
    try (cbn; repeat split; try reflexivity; discriminate);
    try (repeat match goal with b : bool |- _ => destruct b end;
         cbn; repeat split; try reflexivity; discriminate);
    try (exfalso; apply N; cbn; tauto).
  - apply safe_seq. cbn. repeat split; apply safe_rep; cbn; repeat split; reflexivity.
  - apply safe_seq. destruct robust, first, async; cbn; repeat split;
      apply safe_seq, safe_rep; cbn; repeat split; try reflexivity; discriminate.
Qed.

Lemma nbr_round b : safe (vchk VNbr MNbr True) none (p_round b) (eq none).
Proof. destruct b; cbn; repeat split; try reflexivity; discriminate. Qed.

Lemma nbr_no_race calls s :
  nobody_calls [CallWeights; CallWeightsReset] calls ->
  steps (boot calls) s -> ~ race s VNbr.
Proof.
  intros NB St. apply no_race with (g := MNbr) (spawn := True) (calls := calls).
  apply invA_reach; auto.
  - intros i c p Hin T. apply nbr_covered with (c := c); [|exact T]. exact (NB i c Hin).
  - intros _ b. apply nbr_round.
Qed.

Lemma x_covered c p :
  ~ In c x_calls -> trace c p -> safe (vchk VX MPoses False) none p (eq none).
Proof.
  intros N T. destruct T;
    try (cbn; repeat split; try reflexivity; discriminate);
    try (exfalso; apply N; cbn; tauto).
Qed.

Lemma x_no_race calls s :
  nobody_calls x_calls calls -> steps (boot calls) s -> ~ race s VX.
Proof.
  intros NB St. apply no_race with (g := MPoses) (spawn := False) (calls := calls).
  apply invA_reach; auto.
  - intros i c p Hin T. apply x_covered with (c := c); [|exact T]. exact (NB i c Hin).
  - tauto.
Qed.
