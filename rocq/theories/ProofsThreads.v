(** Invariants of the thread model: what every thread holds matches its
    remaining program, and the phases of starting and stopping the
    optimisation thread. *)

From Coq Require Import List Bool Arith Relations Lia.
From Verif Require Import ModelThreads SpecThreads.
Import ListNotations.

Set Implicit Arguments.

(** {1 Checking programs against the set of held mutexes} *)

Definition h3 : Type := (bool * bool * bool)%type.
Definition none : h3 := (false, false, false).

Definition get (h : h3) (l : mutex) : bool :=
  match h, l with
  | (a, _, _), MPoses => a
  | (_, b, _), MMeas => b
  | (_, _, c), MNbr => c
  end.

Definition put (h : h3) (l : mutex) (x : bool) : h3 :=
  match h, l with
  | (_, b, c), MPoses => (x, b, c)
  | (a, _, c), MMeas => (a, x, c)
  | (a, b, _), MNbr => (a, b, x)
  end.

Definition eff (h : h3) (a : act) : h3 :=
  match a with
  | Lock l => put h l true
  | Unlock l => put h l false
  | _ => h
  end.

Fixpoint safe (chk : h3 -> act -> Prop) (h : h3) (p : prog) (post : h3 -> Prop) : Prop :=
  match p with
  | Ret => post h
  | Do a k => chk h a /\ safe chk (eff h a) k post
  | IfRunning y n => safe chk h y post /\ safe chk h n post
  end.

Lemma safe_seq chk p q : forall h post,
  safe chk h (seq p q) post <-> safe chk h p (fun h' => safe chk h' q post).
Proof.
  induction p as [|a k IH|y IHy n IHn]; intros h post; cbn.
  - tauto.
  - rewrite IH. tauto.
  - rewrite IHy, IHn. tauto.
Qed.

Lemma safe_mono chk p : forall h (P Q : h3 -> Prop),
  (forall h', P h' -> Q h') -> safe chk h p P -> safe chk h p Q.
Proof.
  induction p as [|a k IH|y IHy n IHn]; intros h P Q HPQ H; cbn in *.
  - now apply HPQ.
  - destruct H as [H1 H2]. split; [exact H1|]. now apply IH with (P := P).
  - destruct H as [H1 H2]. split; [now apply IHy with (P := P)|now apply IHn with (P := P)].
Qed.

Lemma safe_chk_mono (c1 c2 : h3 -> act -> Prop) p : forall h post,
  (forall h a, c1 h a -> c2 h a) -> safe c1 h p post -> safe c2 h p post.
Proof.
  induction p as [|a k IH|y IHy n IHn]; intros h post HC H; cbn in *.
  - exact H.
  - destruct H as [H1 H2]. split; auto.
  - destruct H as [H1 H2]. split; auto.
Qed.

Lemma safe_rep chk p n : forall h (post : h3 -> Prop),
  safe chk h p (eq h) -> post h -> safe chk h (rep n p) post.
Proof.
  induction n as [|n IH]; intros h post H HP; cbn [rep].
  - exact HP.
  - apply safe_seq. apply safe_mono with (P := eq h); [|exact H].
    intros h' <-. now apply IH.
Qed.

(** Discharge of a concrete program, however its parameters branch. *)
Ltac crunch :=
  repeat match goal with
  | |- safe _ _ (seq _ _) _ => apply safe_seq; cbn beta
  | |- safe _ _ (rep _ _) _ => apply safe_rep
  | |- safe _ _ (if ?b then _ else _) _ => destruct b
  | |- safe _ _ (match ?b with true => _ | false => _ end) _ => destruct b
  end.

(** {1 Ownership against programs} *)

Definition own (s : sys) (l : mutex) (t : nat) : bool :=
  match owner s l with Some u => Nat.eqb u t | None => false end.

Definition held (s : sys) (t : nat) : h3 := (own s MPoses t, own s MMeas t, own s MNbr t).

Lemma get_held s t l : get (held s t) l = own s l t.
Proof. destruct l; reflexivity. Qed.

Lemma held_ext s s' t :
  (forall l, own s l t = own s' l t) -> held s t = held s' t.
Proof. intros H. unfold held. now rewrite !H. Qed.

Lemma own_set_other s l o t m :
  m <> l -> own (set_owner s l o) m t = own s m t.
Proof.
  intros H. unfold own, set_owner; cbn.
  destruct m, l; cbn; try reflexivity; congruence.
Qed.

Lemma held_put s l (o : option nat) t (b : bool) :
  (match o with Some u => Nat.eqb u t | None => false end) = b ->
  held (set_owner s l o) t = put (held s t) l b.
Proof.
  intros H. unfold held, own, set_owner; cbn.
  destruct l; cbn; rewrite H; reflexivity.
Qed.

Lemma put_same h l : put h l (get h l) = h.
Proof. destruct h as [[a b] c], l; reflexivity. Qed.

Lemma held_other s l (o : option nat) u :
  own s l u = false ->
  (match o with Some v => Nat.eqb v u | None => false end) = false ->
  held (set_owner s l o) u = held s u.
Proof.
  intros H1 H2. rewrite (held_put s l o u H2).
  rewrite <- H1, <- get_held. apply put_same.
Qed.

(** What an executed step does to ownership and to the threads. *)
Lemma exec_effect t a s s' :
  exec t a s s' ->
  held s' t = eff (held s t) a /\
  (forall u, u <> t -> held s' u = held s u) /\
  callers s' = callers s /\
  (wrk s' = wrk s \/
   (wrk s = WNone /\ a = Spawn /\ exists b, wrk s' = WRun (p_round b)) \/
   (wrk s = WDone /\ wrk s' = WNone)).
Proof.
  intros H; destruct H; cbn;
    try (split; [reflexivity|split; [reflexivity|split; [reflexivity|auto]]]).
  - split; [|split; [|split; [reflexivity|auto]]].
    + apply held_put, Nat.eqb_refl.
    + intros u Hu. apply held_other.
      * unfold own. now rewrite H.
      * apply Nat.eqb_neq. auto.
  - split; [|split; [|split; [reflexivity|auto]]].
    + now apply held_put.
    + intros u Hu. apply held_other; [|reflexivity].
      unfold own. rewrite H. apply Nat.eqb_neq. auto.
  - right; left. split; [assumption|]. split; [reflexivity|]. now exists b.
Qed.

Section Ownership.
Variable chk : h3 -> act -> Prop.
Variable calls : nat -> list call.
Hypothesis chk_calls : forall i c p, In c (calls i) -> trace c p -> safe chk none p (eq none).
(* [may]: an optimisation thread may be created at all *)
Variable may : Prop.
Hypothesis chk_spawn : forall h, chk h Spawn -> may.
Hypothesis chk_round : may -> forall b, safe chk none (p_round b) (eq none).

Definition invA (s : sys) : Prop :=
  (forall i, safe chk (held s (S i)) (cur (callers s i)) (eq none)) /\
  (match wrk s with
   | WRun p => safe chk (held s 0) p (eq none) /\ may
   | _ => none = held s 0
   end) /\
  (forall i c, In c (todo (callers s i)) -> In c (calls i)).

Lemma invA_boot : invA (boot calls).
Proof. repeat split; cbn; auto. Qed.

Lemma upd_same (A : Type) (f : nat -> A) i x : upd f i x i = x.
Proof. unfold upd. now rewrite Nat.eqb_refl. Qed.

Lemma upd_other (A : Type) (f : nat -> A) i j x : j <> i -> upd f i x j = f j.
Proof. intros H. unfold upd. now rewrite (proj2 (Nat.eqb_neq j i) H). Qed.

(** The worker's part of the invariant after a step of another thread. *)
Lemma worker_part s s' a h :
  chk h a ->
  held s' 0 = held s 0 ->
  (wrk s' = wrk s \/
   (wrk s = WNone /\ a = Spawn /\ exists b, wrk s' = WRun (p_round b)) \/
   (wrk s = WDone /\ wrk s' = WNone)) ->
  match wrk s with
  | WRun p => safe chk (held s 0) p (eq none) /\ may
  | _ => none = held s 0
  end ->
  match wrk s' with
  | WRun p => safe chk (held s' 0) p (eq none) /\ may
  | _ => none = held s' 0
  end.
Proof.
  intros Hc H0 [E|[(E & Ea & b & E')|[E E']]] H; rewrite H0.
  - now rewrite E.
  - rewrite E'. rewrite E in H. rewrite <- H. subst a.
    pose proof (chk_spawn Hc) as Hm. split; [now apply chk_round|exact Hm].
  - rewrite E'. now rewrite E in H.
Qed.

Lemma invA_step s s' : invA s -> step s s' -> invA s'.
Proof.
  intros (HC & HW & HT) [s1 _ Hs|i s1 _ Hs].
  - destruct Hs as [a k s2 E X|y n E|E R|b E R].
    + destruct (exec_effect X) as (H1 & H2 & H3 & H4). cbn in *.
      split; [|split].
      * intros i. rewrite H3. rewrite H2 by discriminate. apply HC.
      * rewrite E in HW. destruct HW as [[_ HW] Hm].
        change (held (set_wrk s (WRun k)) 0) with (held s 0) in H1.
        rewrite <- H1 in HW.
        destruct H4 as [->|[[C _]|[C _]]]; [auto|discriminate|discriminate].
      * rewrite H3. exact HT.
    + split; [exact HC|split; [|exact HT]]. cbn. rewrite E in HW. cbn in HW.
      change (held (set_wrk s (WRun (if ptr s then y else n))) 0) with (held s 0).
      destruct (ptr s); tauto.
    + split; [exact HC|split; [|exact HT]]. cbn. rewrite E in HW. exact (proj1 HW).
    + split; [exact HC|split; [|exact HT]]. cbn. rewrite E in HW. cbn in HW.
      change (held (set_wrk s (WRun (p_round b))) 0) with (held s 0).
      destruct HW as [HW Hm].
      rewrite <- HW. split; [now apply chk_round|exact Hm].
  - destruct Hs as [c r p lst E Tr|a k lst r s2 E X|y n lst r E].
    + assert (Hi := HC i). rewrite E in Hi. cbn in Hi.
      split; [|split].
      * intros j. destruct (Nat.eq_dec j i) as [->|N]; cbn.
        -- rewrite upd_same. cbn.
           change (held (set_caller s i (mkCaller p (Some c) r)) (S i)) with (held s (S i)).
           rewrite <- Hi. apply chk_calls with (i := i) (c := c); [|exact Tr].
           apply HT. rewrite E. now left.
        -- rewrite upd_other by exact N. apply HC.
      * exact HW.
      * intros j c'. cbn. destruct (Nat.eq_dec j i) as [->|N].
        -- rewrite upd_same. cbn. intros H. apply HT. rewrite E. now right.
        -- rewrite upd_other by exact N. apply HT.
    + destruct (exec_effect X) as (H1 & H2 & H3 & H4). cbn in H3, H4.
      assert (Hi := HC i). rewrite E in Hi. cbn in Hi. destruct Hi as [Hc Hi].
      split; [|split].
      * intros j. rewrite H3. destruct (Nat.eq_dec j i) as [->|N]; cbn.
        -- rewrite upd_same. cbn. rewrite H1. exact Hi.
        -- rewrite upd_other by exact N. rewrite H2 by congruence. apply HC.
      * apply (@worker_part s s2 a _ Hc); [|exact H4|exact HW].
        rewrite H2 by discriminate. reflexivity.
      * rewrite H3. intros j c'. destruct (Nat.eq_dec j i) as [->|N].
        -- rewrite upd_same. cbn. intros H. apply HT. now rewrite E.
        -- rewrite upd_other by exact N. apply HT.
    + assert (Hi := HC i). rewrite E in Hi. cbn in Hi.
      split; [|split].
      * intros j. destruct (Nat.eq_dec j i) as [->|N]; cbn.
        -- rewrite upd_same. cbn. change (held (set_caller s i
             (mkCaller (if ptr s then y else n) lst r)) (S i)) with (held s (S i)).
           destruct (ptr s); tauto.
        -- rewrite upd_other by exact N. apply HC.
      * exact HW.
      * intros j c'. cbn. destruct (Nat.eq_dec j i) as [->|N].
        -- rewrite upd_same. cbn. intros H. apply HT. now rewrite E.
        -- rewrite upd_other by exact N. apply HT.
Qed.

Lemma invA_steps s s' : steps s s' -> invA s -> invA s'.
Proof.
  induction 1 as [|s1 s2 _ IH St]; intros HI; [exact HI|].
  exact (invA_step (IH HI) St).
Qed.

Lemma invA_reach s : steps (boot calls) s -> invA s.
Proof. intros H. apply invA_steps with (1 := H), invA_boot. Qed.

End Ownership.

(** {1 Order of acquisition} *)

(** Lock only above everything held, unlock what is held, join with nothing
    held. *)
Definition ochk (h : h3) (a : act) : Prop :=
  match a with
  | Lock MPoses => h = none
  | Lock MMeas => get h MMeas = false /\ get h MNbr = false
  | Lock MNbr => get h MNbr = false
  | Unlock l => get h l = true
  | Join => h = none
  | _ => True
  end.

Lemma init_global_body_safe robust halted :
  safe ochk none (p_init_global_body robust halted) (eq none).
Proof. destruct robust, halted; cbn; repeat split; reflexivity. Qed.

Lemma init_global_safe robust : safe ochk none (p_init_global robust) (eq none).
Proof. destruct robust; cbn; repeat split; reflexivity. Qed.

Lemma round_ordered b : safe ochk none (p_round b) (eq none).
Proof. destruct b; cbn; repeat split; reflexivity. Qed.

Lemma rep_meas_safe k (post : h3 -> Prop) :
  post none -> safe ochk none (rep k (guarded_by MMeas [])) post.
Proof. intros H. apply safe_rep; [cbn; repeat split; reflexivity|exact H]. Qed.

Lemma p_end_safe (post : h3 -> Prop) : post none -> safe ochk none p_end post.
Proof. intros H. cbn. repeat split; auto. Qed.

Lemma call_ordered c p : c <> CallWeightsReset -> trace c p -> safe ochk none p (eq none).
Proof.
  intros N T.
  destruct T; try congruence;
    try (cbn; repeat split; reflexivity);
    try (repeat match goal with b : bool |- _ => destruct b end;
         cbn; repeat split; reflexivity).
  - apply safe_seq, p_end_safe, rep_meas_safe. reflexivity.
  - apply safe_seq, p_end_safe, safe_seq, rep_meas_safe.
    destruct robust, first, async; cbn; repeat split; reflexivity.
  - unfold p_weights. cbn [safe]. split; [cbn; auto|]. apply safe_seq.
    apply safe_rep; [cbn; repeat split; reflexivity|].
    destruct acc; cbn; repeat split; reflexivity.
Qed.

(** {1 Phases of the control thread} *)

(** Where the control thread stands: between operations with the pointer
    null or not; request made; joined; pointer cleared. *)
Inductive phase := Idle (b : bool) | Asked | Joined | Cleared.

Definition phase_ok (ph : phase) (s : sys) : Prop :=
  match ph with
  | Idle true => ptr s = true /\ req s = false /\ exists p, wrk s = WRun p
  | Idle false => ptr s = false /\ req s = false /\ wrk s = WNone
  | Asked => ptr s = true /\ req s = true /\ (wrk s = WDone \/ exists p, wrk s = WRun p)
  | Joined => ptr s = true /\ req s = true /\ wrk s = WNone
  | Cleared => ptr s = false /\ req s = true /\ wrk s = WNone
  end.

Fixpoint ctl (ph : phase) (p : prog) (post : bool -> Prop) : Prop :=
  match p with
  | Ret => match ph with Idle b => post b | _ => False end
  | Do a k =>
      match a with
      | Spawn => match ph with Idle false => ctl (Idle true) k post | _ => False end
      | SetRequest true => match ph with Idle true => ctl Asked k post | _ => False end
      | Join => match ph with Asked => ctl Joined k post | _ => False end
      | ClearPtr => match ph with Joined => ctl Cleared k post | _ => False end
      | SetRequest false => match ph with Cleared => ctl (Idle false) k post | _ => False end
      | Iter => False
      | _ => ctl ph k post
      end
  | IfRunning y n =>
      match ph with
      | Idle true => ctl ph y post
      | Idle false => ctl ph n post
      | _ => False
      end
  end.

Lemma ctl_seq p q : forall ph post,
  ctl ph p (fun b => ctl (Idle b) q post) -> ctl ph (seq p q) post.
Proof.
  induction p as [|a k IH|y IHy n IHn]; intros ph post H; cbn in *.
  - destruct ph; [exact H|contradiction..].
  - destruct a as [ | | | | | | [] | | ]; try (now apply IH); try contradiction;
      destruct ph as [[]| | | ]; try contradiction; now apply IH.
  - destruct ph as [[]| | | ]; try contradiction; auto.
Qed.

Lemma ctl_mono p : forall ph (P Q : bool -> Prop),
  (forall b, P b -> Q b) -> ctl ph p P -> ctl ph p Q.
Proof.
  induction p as [|a k IH|y IHy n IHn]; intros ph P Q HPQ H; cbn in *.
  - destruct ph; auto.
  - destruct a as [ | | | | | | [] | | ]; try (eapply IH; eauto; fail); try contradiction;
      destruct ph as [[]| | | ]; try contradiction; eapply IH; eauto.
  - destruct ph as [[]| | | ]; try contradiction; eauto.
Qed.

Lemma ctl_rep p n : forall b (post : bool -> Prop),
  ctl (Idle b) p (eq b) -> post b -> ctl (Idle b) (rep n p) post.
Proof.
  induction n as [|n IH]; intros b post H HP; cbn [rep].
  - exact HP.
  - apply ctl_seq. apply ctl_mono with (P := eq b); [|exact H].
    intros b' <-. now apply IH.
Qed.

(** What a completed call says about the thread. *)
Definition after (c : call) (b0 b : bool) : Prop :=
  match c with
  | CallEnd | CallReset => b = false
  | CallStart => b = true
  | CallInitialize => True
  | _ => b = b0
  end.

(** Calls without any control operation. *)
Fixpoint quiet (p : prog) : bool :=
  match p with
  | Ret => true
  | Do a k =>
      match a with
      | Spawn | SetRequest _ | Join | ClearPtr | Iter => false
      | _ => quiet k
      end
  | IfRunning _ _ => false
  end.

Lemma quiet_seq p q : quiet p = true -> quiet q = true -> quiet (seq p q) = true.
Proof.
  induction p as [|a k IH|y IHy n IHn]; cbn; intros Hp Hq; try discriminate; auto.
  destruct a; try discriminate; auto.
Qed.

Lemma quiet_rep p n : quiet p = true -> quiet (rep n p) = true.
Proof. intros H; induction n; cbn; auto using quiet_seq. Qed.

Lemma quiet_ctl p : quiet p = true -> forall b, ctl (Idle b) p (eq b).
Proof.
  induction p as [|a k IH|y IHy n IHn]; cbn; intros H b; try discriminate; auto.
  destruct a; try discriminate; auto.
Qed.

Lemma trace_quiet c p : controls c = false -> trace c p -> quiet p = true.
Proof.
  intros N T. destruct T; try discriminate N;
    try reflexivity;
    try (repeat match goal with b : bool |- _ => destruct b end; reflexivity).
  - unfold p_weights. cbn. apply quiet_seq; [now apply quiet_rep|destruct acc; reflexivity].
  - unfold p_weights. cbn. apply quiet_seq; [now apply quiet_rep|destruct acc; reflexivity].
Qed.

Lemma ctl_end b (post : bool -> Prop) : post false -> ctl (Idle b) p_end post.
Proof. intros H. destruct b; exact H. Qed.

Lemma trace_ctl c p b : trace c p -> ctl (Idle b) p (after c b).
Proof.
  intros T. destruct (controls c) eqn:N.
  - destruct T; try discriminate N; cbn [after].
    + exact I.
    + apply ctl_seq, ctl_end, ctl_rep; [apply quiet_ctl; reflexivity|exact I].
    + apply ctl_seq, ctl_end, ctl_seq, ctl_rep; [apply quiet_ctl; reflexivity|].
      destruct robust, first, async; exact I.
    + destruct robust, b; reflexivity.
    + destruct logged, saved, b; reflexivity.
    + reflexivity.
    + destruct first, robust, store, b; reflexivity.
    + destruct b; reflexivity.
    + destruct b; reflexivity.
  - apply trace_quiet in T; [|exact N].
    apply ctl_mono with (P := eq b); [|now apply quiet_ctl].
    intros b' <-. destruct c; cbn in N |- *; try discriminate; auto.
Qed.

Lemma round_quiet_tail b : exists k, p_round b = Do Iter k /\ quiet k = true.
Proof. destruct b; eexists; split; reflexivity. Qed.

(** Programs of the optimisation thread: no control operation, and [n]
    entries into iterate left. *)
Fixpoint iters_left (p : prog) : nat :=
  match p with
  | Ret => 0
  | Do Iter k => S (iters_left k)
  | Do _ k => iters_left k
  | IfRunning y n => Nat.max (iters_left y) (iters_left n)
  end.

Fixpoint wquiet (p : prog) : bool :=
  match p with
  | Ret => true
  | Do a k =>
      match a with
      | Spawn | SetRequest _ | Join | ClearPtr => false
      | _ => wquiet k
      end
  | IfRunning _ _ => false
  end.

Section Control.
Variable calls : nat -> list call.
Hypothesis ctl_calls : one_controller calls.

(** The phase of the control thread agrees with the shared state; [dead]
    never becomes set. *)
Definition invB (s : sys) : Prop :=
  dead s = false /\
  (exists ph, phase_ok ph s /\ ctl ph (cur (callers s 0))
     (fun b => match last (callers s 0) with
               | None => b = false
               | Some CallEnd | Some CallReset => b = false
               | Some CallStart => b = true
               | _ => True end)) /\
  (forall i, quiet (cur (callers s (S i))) = true) /\
  (match wrk s with
   | WRun p => wquiet p = true /\ iters_left p <= 1 /\ spawned s <= rounds s + iters_left p
   | _ => spawned s <= rounds s
   end) /\
  (forall i c, In c (todo (callers s i)) -> In c (calls i)).

Lemma invB_boot : invB (boot calls).
Proof.
  split; [reflexivity|]. split.
  { exists (Idle false). cbn. auto. }
  split; [reflexivity|]. split; [cbn; lia|]. cbn. auto.
Qed.

Lemma round_facts b : wquiet (p_round b) = true /\ iters_left (p_round b) = 1.
Proof. destruct b; split; reflexivity. Qed.

(** Steps of the optimisation thread keep the phase. *)
Lemma phase_worker ph s s' : phase_ok ph s -> worker_step s s' ->
  (forall p, wrk s = WRun p -> wquiet p = true) ->
  phase_ok ph s' /\ callers s' = callers s /\ dead s' = dead s.
Proof.
  intros P W Q.
  assert (N : exists p, wrk s = WRun p) by (destruct W; eauto).
  destruct N as [p Ep]. specialize (Q p Ep).
  destruct W as [a k s2 E X|y n E|E R|b E R]; rewrite Ep in E; injection E as ->.
  - cbn in Q. remember (set_wrk s (WRun k)) as s1 eqn:Es1.
    destruct X; subst; try discriminate Q;
      (split; [|split; reflexivity]);
      destruct ph as [[]| | | ]; cbn in *;
      firstorder; try congruence; eauto.
  - discriminate Q.
  - split; [|split; reflexivity].
    destruct ph as [[]| | | ]; cbn in *; firstorder; congruence.
  - split; [|split; reflexivity].
    destruct ph as [[]| | | ]; cbn in *; firstorder; eauto; congruence.
Qed.

(** Steps that are not control operations keep the phase. *)
Lemma exec_quiet t a s s' : exec t a s s' ->
  match a with Spawn | SetRequest _ | Join | ClearPtr | Iter => False | _ => True end ->
  ptr s' = ptr s /\ req s' = req s /\ wrk s' = wrk s /\ rounds s' = rounds s /\
  spawned s' = spawned s /\ dead s' = dead s /\ callers s' = callers s.
Proof. intros X A. destruct X; try contradiction; cbn; intuition. Qed.

Lemma phase_same ph s s' :
  ptr s' = ptr s -> req s' = req s -> wrk s' = wrk s -> phase_ok ph s -> phase_ok ph s'.
Proof. intros E1 E2 E3. destruct ph as [[]| | | ]; cbn; rewrite E1, E2, E3; auto. Qed.

(** A step of the control thread moves to the next phase. *)
Lemma phase_exec ph a k post s s' t :
  exec t a s s' -> phase_ok ph s -> ctl ph (Do a k) post ->
  exists ph', phase_ok ph' s' /\ ctl ph' k post /\ dead s' = dead s /\
    callers s' = callers s.
Proof.
  intros X P C. cbn in C.
  destruct X; cbn in C;
    try (exists ph; split; [|split; [exact C|split; reflexivity]];
         eapply phase_same; [..|exact P]; reflexivity).
  - contradiction.
  - destruct ph as [[]| | | ]; try contradiction.
    exists (Idle true). cbn in *. split; [|auto]. intuition. eauto.
  - destruct ph as [[]| | | ]; try contradiction. cbn in P. exfalso. intuition congruence.
  - destruct b.
    + destruct ph as [[]| | | ]; try contradiction.
      exists Asked. cbn in *. split; [|auto]. intuition.
    + destruct ph as [[]| | | ]; try contradiction.
      exists (Idle false). cbn in *. split; [|auto]. intuition.
  - destruct ph as [[]| | | ]; try contradiction.
    exists Joined. cbn in *. split; [|auto]. intuition.
  - destruct ph as [[]| | | ]; try contradiction.
    exists Cleared. cbn in *. split; [|auto]. intuition.
  - destruct ph as [[]| | | ]; try contradiction. cbn in P. exfalso. intuition congruence.
Qed.

(** What any step does to the optimisation thread and its counters. *)
Definition wpart (s : sys) : Prop :=
  match wrk s with
  | WRun p => wquiet p = true /\ iters_left p <= 1 /\ spawned s <= rounds s + iters_left p
  | _ => spawned s <= rounds s
  end.

Lemma wpart_exec t a s s' :
  exec t a s s' -> a <> Iter -> wpart s -> wpart s'.
Proof.
  intros X N W. destruct X; try exact W; try congruence.
  - unfold wpart in *. cbn [new_worker wrk rounds spawned]. rewrite H0 in W.
    destruct (round_facts b) as [-> ->].
    repeat split; lia.
  - unfold wpart in *. cbn. now rewrite H in W.
Qed.

Lemma wpart_worker s s' : worker_step s s' -> wpart s -> wpart s'.
Proof.
  intros S W. unfold wpart in W.
  destruct S as [a k s2 E X|y n E|E R|b E R]; rewrite E in W.
  - destruct W as (W1 & W2 & W3).
    remember (set_wrk s (WRun k)) as s1 eqn:Es1.
    destruct X; subst; cbn in W1, W2, W3; try discriminate W1; unfold wpart; cbn;
      try (now repeat split); repeat split; auto; lia.
  - destruct W as (W1 & _). discriminate W1.
  - unfold wpart. cbn in *. lia.
  - unfold wpart. cbn in W. cbn [set_wrk wrk rounds spawned].
    destruct (round_facts b) as [-> ->]. repeat split; lia.
Qed.

Lemma invB_step s s' : invB s -> step s s' -> invB s'.
Proof.
  intros (HD & (ph & HP & HC) & HQ & HW & HT) [s1 _ Hs|i s1 _ Hs].
  - destruct (phase_worker ph HP Hs) as (P' & C' & D').
    { intros p E. rewrite E in HW. tauto. }
    unfold invB. rewrite D', C'.
    split; [exact HD|]. split; [exists ph; split; [exact P'|exact HC]|].
    split; [exact HQ|]. split; [|exact HT]. now apply (wpart_worker Hs).
  - destruct Hs as [c r p lst E Tr|a k lst r s2 E X|y n lst r E].
    + assert (Hin : In c (calls i)) by (apply HT; rewrite E; now left).
      split; [exact HD|]. split; [|split; [|split; [exact HW|]]].
      * cbn. destruct i as [|i].
        -- rewrite upd_same. cbn. rewrite E in HC. cbn in HC.
           destruct ph as [b| | | ]; try contradiction.
           exists (Idle b). split; [exact HP|].
           eapply ctl_mono; [|apply (trace_ctl b Tr)].
           intros b' A. destruct c; cbn in A |- *; auto.
        -- rewrite upd_other by discriminate. exists ph. auto.
      * intros j. cbn. destruct (Nat.eq_dec (S j) i) as [<-|N].
        -- rewrite upd_same. cbn. apply trace_quiet with (c := c); [|exact Tr].
           destruct (controls c) eqn:Ec; [|reflexivity].
           specialize (ctl_calls _ _ Hin Ec). discriminate.
        -- rewrite upd_other by exact N. apply HQ.
      * intros j c'. cbn. destruct (Nat.eq_dec j i) as [->|N].
        -- rewrite upd_same. cbn. intros H. apply HT. rewrite E. now right.
        -- rewrite upd_other by exact N. apply HT.
    + destruct (exec_effect X) as (_ & _ & H3 & _). cbn in H3.
      assert (HI : a <> Iter).
      { intros ->. destruct i as [|i].
        - rewrite E in HC. exact HC.
        - specialize (HQ i). rewrite E in HQ. discriminate HQ. }
      assert (HW' : wpart s2).
      { apply (wpart_exec X HI). exact HW. }
      destruct i as [|i].
      * rewrite E in HC. cbn [cur last] in HC.
        destruct (phase_exec ph k _ X (@phase_same ph s (set_caller s 0 (mkCaller k lst r))
            eq_refl eq_refl eq_refl HP) HC) as (ph' & P' & C' & D' & _).
        split; [rewrite D'; exact HD|]. split; [|split; [|split; [exact HW'|]]].
        -- exists ph'. split; [exact P'|]. rewrite H3, upd_same. exact C'.
        -- intros j. rewrite H3, upd_other by discriminate. apply HQ.
        -- rewrite H3. intros j c'. destruct (Nat.eq_dec j 0) as [->|N].
           ++ rewrite upd_same. cbn. intros H. apply HT. now rewrite E.
           ++ rewrite upd_other by exact N. apply HT.
      * assert (Q := HQ i). rewrite E in Q. cbn [cur quiet] in Q.
        destruct (exec_quiet X) as (E1 & E2 & E3 & E4 & E5 & E6 & _).
        { destruct a; auto; discriminate Q. }
        split; [rewrite E6; exact HD|]. split; [|split; [|split; [exact HW'|]]].
        -- exists ph. split; [apply (@phase_same ph s s2 E1 E2 E3 HP)|].
           rewrite H3, upd_other by discriminate. exact HC.
        -- intros j. rewrite H3. destruct (Nat.eq_dec (S j) (S i)) as [Ej|N].
           ++ rewrite Ej, upd_same. cbn. destruct a; try discriminate Q; exact Q.
           ++ rewrite upd_other by exact N. apply HQ.
        -- rewrite H3. intros j c'. destruct (Nat.eq_dec j (S i)) as [->|N].
           ++ rewrite upd_same. cbn. intros H. apply HT. now rewrite E.
           ++ rewrite upd_other by exact N. apply HT.
    + destruct i as [|i].
      2: { specialize (HQ i). rewrite E in HQ. discriminate HQ. }
      split; [exact HD|]. split; [|split; [|split; [exact HW|]]].
      * cbn. exists ph. split; [exact HP|].
        rewrite E in HC. cbn in HC.
        destruct ph as [[]| | | ]; try contradiction; destruct HP as [-> _]; exact HC.
      * intros j. apply HQ.
      * intros [|j] c'.
        -- cbn. intros H. apply HT. now rewrite E.
        -- apply HT.
Qed.

Lemma invB_steps s s' : steps s s' -> invB s -> invB s'.
Proof.
  induction 1 as [|s1 s2 _ IH St]; intros HI; [exact HI|].
  exact (invB_step (IH HI) St).
Qed.

Lemma invB_reach s : steps (boot calls) s -> invB s.
Proof. intros H. apply invB_steps with (1 := H), invB_boot. Qed.

End Control.
