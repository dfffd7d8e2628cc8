(** Agents whose stored matrix is fresh or not, over the rationals. *)
From Coq Require Import List NArith ZArith Bool Lia QArith.
From Verif Require Import Base SMap Num ModelTypes ModelPoseGraph ModelProblem ModelRobust ModelPoses ModelSolver ModelAgent
  SpecPoseGraph SpecAgent SpecData ProofsAgentEx.
Import ListNotations.
Local Open Scope res_scope.

(** An optimiser that stays put when the first entry of the stored matrix is
    that of a rebuilt one, and doubles the estimate otherwise; one that always
    stays put cannot be told from it on proper graphs. *)
Definition stay : Optimizer Q := fun _ X => (None, X).
Definition spy : Optimizer Q := fun g X =>
  match pg_Q g, quadraticMatrix (set_pg_Q g None) with
  | Some M, Ok (_, M') => if Qeq_bool (M 0%nat 0%nat) (M' 0%nat 0%nat) then (None, X) else (None, madd X X)
  | _, _ => (None, madd X X)
  end.
Lemma spy_alike a : alike (proper a) stay spy.
Proof.
  intros g X (_ & (M & g' & E1 & E2)). unfold spy, stay. rewrite E1, E2.
  assert (R : Qeq_bool (M 0%nat 0%nat) (M 0%nat 0%nat) = true) by (apply Qeq_bool_iff; reflexivity). rewrite R. reflexivity.
Qed.

(** A history [os] without unmended spoiling call, then [o] and [rest]: the two
    optimisers lead to different estimates. *)
Definition told_apart (acc : bool) (os : list (aop Q)) (o : aop Q) (rest : list (aop Q)) : bool :=
  match newAgent zx 1 (zp acc) with
  | Ok a0 =>
      negb (spoilt zx false a0 os) &&
      match ag_run zx a0 (os ++ o :: rest) with
      | Ok a =>
          match ag_step zx a (AIterate stay true), ag_step zx a (AIterate spy true) with
          | Ok a1, Ok a2 => negb (Qeq_bool (pa_X (a_X a1) 0%nat 0%nat) (pa_X (a_X a2) 0%nat 0%nat))
          | _, _ => false
          end
      | _ => false
      end
  | _ => false
  end.

Lemma told_apart_spec acc os o rest : told_apart acc os o rest = true -> blamed zx 1 (zp acc) os o rest.
Proof.
  unfold told_apart. destruct (newAgent zx 1 (zp acc)) as [a0| |] eqn:E0; try discriminate. intros T. apply andb_true_iff in T. destruct T as [T1 T].
  destruct (ag_run zx a0 (os ++ o :: rest)) as [a| |] eqn:E; try discriminate.
  destruct (ag_step zx a (AIterate stay true)) as [a1| |] eqn:E1; try discriminate.
  destruct (ag_step zx a (AIterate spy true)) as [a2| |] eqn:E2; try discriminate.
  exists a0, a, stay, spy, a1, a2, 0%nat, 0%nat. split; auto. split; [destruct (spoilt _ _ _ _); [discriminate|reflexivity]|]. split; auto. split; [apply spy_alike|].
  split; auto. split; auto. intros Z. assert (Z' : Qeq_bool (pa_X (a_X a1) 0%nat 0%nat) (pa_X (a_X a2) 0%nat 0%nat) = true) by (apply Qeq_bool_iff; rewrite Z; reflexivity).
  rewrite Z' in T. discriminate.
Qed.

Definition deliver : aop Q := AUpdNbr 0 [(mkPoseID 0 5, zpose 0 0); (mkPoseID 0 6, zpose 6 4)].
Definition here : PoseArr Q := mkPA 2 2 1 (mkMx 2 3 (fun i j => if Nat.eqb i j then 1%Q else 0%Q)).
Lemma deliver_ok : aop_ok deliver.
Proof. cbn. unfold msorted. cbn. repeat constructor. Qed.

Lemma weight_told : told_apart false (join ++ [AIterate zopt true]) (ASetWeight (mkPoseID 1 0) (mkPoseID 1 2) 0%Q true) [] = true.
Proof. vm_compute. reflexivity. Qed.
Lemma anchor_told : told_apart false (join ++ [AIterate zopt true]) AAnchorFirst [] = true.
Proof. vm_compute. reflexivity. Qed.
Lemma prior_told : told_apart false (join ++ [AIterate zopt true]) (AAnchorWith (zpose 0 0)) [] = true.
Proof. vm_compute. reflexivity. Qed.
Definition reweighted : list (aop Q) := join ++ [AIterate zopt true; AUpdWeights; st0 0 0 true; deliver; AIterate zopt true].
Lemma reinit_told : told_apart false reweighted (AInitGlobal here) [deliver] = true.
Proof. vm_compute. reflexivity. Qed.
Lemma robust_told : told_apart false reweighted AInitRobust [] = true.
Proof. vm_compute. reflexivity. Qed.

(** Mended: after an update of the weights the spy sees nothing. *)
Definition mended : list (aop Q) :=
  join ++ [ASetWeight (mkPoseID 1 0) (mkPoseID 1 2) 0%Q true; AIterate zopt true; AAnchorFirst; AUpdWeights; st0 0 0 true; deliver; ASetActive 0 false; ASetActive 0 true; AIterate zopt true].
Definition unspoilt (acc : bool) (os : list (aop Q)) : bool :=
  match newAgent zx 1 (zp acc) with
  | Ok a0 =>
      negb (spoilt zx false a0 os) &&
      match ag_run zx a0 os with
      | Ok a =>
          negb (Qeq_bool (pa_X (a_X a) 0%nat 0%nat) 0%Q) &&
          match ag_iterate zx spy a true with
          | Ok (a', s) => s && Qeq_bool (pa_X (a_X a') 0%nat 0%nat) (pa_X (a_X a) 0%nat 0%nat)
          | _ => false
          end
      | _ => false
      end
  | _ => false
  end.
Lemma unspoilt_spec acc os : unspoilt acc os = true ->
  exists a0 a a', newAgent zx 1 (zp acc) = Ok a0 /\ ag_run zx a0 os = Ok a /\ spoilt zx false a0 os = false /\
    alike_calls (proper a) (AIterate stay true) (AIterate spy true) /\
    ag_iterate zx spy a true = Ok (a', true) /\
    ~ (pa_X (a_X a) 0%nat 0%nat == 0)%Q /\ (pa_X (a_X a') 0%nat 0%nat == pa_X (a_X a) 0%nat 0%nat)%Q.
Proof.
  unfold unspoilt. destruct (newAgent zx 1 (zp acc)) as [a0| |] eqn:E0; try discriminate. intros T. apply andb_true_iff in T. destruct T as [T1 T].
  destruct (ag_run zx a0 os) as [a| |] eqn:E; try discriminate. apply andb_true_iff in T. destruct T as [T2 T].
  destruct (ag_iterate zx spy a true) as [[a' s]| |] eqn:E1; try discriminate. apply andb_true_iff in T. destruct T as [-> T].
  exists a0, a, a'. split; auto. split; auto. split; [destruct (spoilt _ _ _ _); [discriminate|reflexivity]|].
  split; [split; [apply spy_alike|reflexivity]|]. split; auto. split; [|apply Qeq_bool_iff; exact T].
  intros Z. apply Qeq_bool_iff in Z. rewrite Z in T2. discriminate.
Qed.
Lemma mended_ok : Forall aop_ok mended.
Proof. unfold mended, st0. apply Forall_app. split; [apply join_ok|]. repeat (apply Forall_cons || apply Forall_nil); try exact I; exact deliver_ok. Qed.
Lemma ex_mended : unspoilt false mended = true.
Proof. vm_compute. reflexivity. Qed.
(** Mended by switching the neighbour off and on. *)
Definition toggled : list (aop Q) :=
  join ++ [AIterate zopt true; ASetWeight (mkPoseID 1 0) (mkPoseID 1 2) 0%Q true; ASetActive 0 false; ASetActive 0 true; AIterate zopt true].
Lemma toggled_ok : Forall aop_ok toggled.
Proof. unfold toggled. apply Forall_app. split; [apply join_ok|]. repeat (apply Forall_cons || apply Forall_nil); exact I. Qed.
Lemma ex_toggled : unspoilt false toggled = true.
Proof. vm_compute. reflexivity. Qed.
Definition accelerated : list (aop Q) := join ++ [aux; AIterate zopt true; AIterate zopt true].
Lemma accelerated_ok : Forall aop_ok accelerated.
Proof. unfold accelerated. apply Forall_app. split; [apply join_ok|]. repeat (apply Forall_cons || apply Forall_nil); try exact I; exact aux_ok. Qed.
Lemma ex_accel : exists a0 a, newAgent zx 1 (zp true) = Ok a0 /\ ag_run zx a0 accelerated = Ok a /\ spoilt zx false a0 accelerated = false /\
  alike_calls (proper a) (ARestart stay true) (ARestart spy true) /\ is_init a = true.
Proof.
  destruct (newAgent zx 1 (zp true)) as [a0| |] eqn:E0; [|exfalso..].
  2, 3: revert E0; vm_compute; discriminate.
  assert (T : match newAgent zx 1 (zp true) with Ok a0 => match ag_run zx a0 accelerated with Ok a => negb (spoilt zx false a0 accelerated) && is_init a | _ => false end | _ => false end = true)
    by (vm_compute; reflexivity).
  rewrite E0 in T. destruct (ag_run zx a0 accelerated) as [a| |] eqn:E; try discriminate. apply andb_true_iff in T. destruct T as [T1 T2].
  exists a0, a. split; auto. split; auto. split; [destruct (spoilt _ _ _ _); [discriminate|reflexivity]|]. split; auto. split; [apply spy_alike|reflexivity].
Qed.
Lemma told_ok (os : list (aop Q)) o rest : Forall aop_ok os -> aop_ok o -> Forall aop_ok rest -> Forall aop_ok (os ++ o :: rest).
Proof. intros A B C. apply Forall_app. split; auto. Qed.
Lemma reweighted_ok : Forall aop_ok reweighted.
Proof. unfold reweighted, st0. apply Forall_app. split; [apply join_ok|]. repeat (apply Forall_cons || apply Forall_nil); try exact I; exact deliver_ok. Qed.
Lemma iterated_ok : Forall aop_ok (join ++ [AIterate zopt true]).
Proof. apply Forall_app. split; [apply join_ok|]. repeat constructor. Qed.

Lemma bad_weight : exists x id p os (s t : PoseID) (w : Q) b, Forall aop_ok (os ++ [ASetWeight s t w b]) /\ blamed x id p os (ASetWeight s t w b) [].
Proof.
  exists zx, 1%N, (zp false), (join ++ [AIterate zopt true]), (mkPoseID 1 0), (mkPoseID 1 2), 0%Q, true.
  split; [apply told_ok; [apply iterated_ok|exact I|constructor]|exact (told_apart_spec _ _ _ _ weight_told)].
Qed.
Lemma bad_anchor : exists (x : Ext Q) id p os, Forall aop_ok (os ++ [AAnchorFirst]) /\ blamed x id p os AAnchorFirst [].
Proof.
  exists zx, 1%N, (zp false), (join ++ [AIterate zopt true]).
  split; [apply told_ok; [apply iterated_ok|exact I|constructor]|exact (told_apart_spec _ _ _ _ anchor_told)].
Qed.
Lemma bad_prior : exists (x : Ext Q) id p os M, Forall aop_ok (os ++ [AAnchorWith M]) /\ blamed x id p os (AAnchorWith M) [].
Proof.
  exists zx, 1%N, (zp false), (join ++ [AIterate zopt true]), (zpose 0 0).
  split; [apply told_ok; [apply iterated_ok|exact I|constructor]|exact (told_apart_spec _ _ _ _ prior_told)].
Qed.
Lemma bad_reinit : exists (x : Ext Q) id p os T k dict, Forall aop_ok (os ++ [AInitGlobal T; AUpdNbr k dict]) /\ blamed x id p os (AInitGlobal T) [AUpdNbr k dict].
Proof.
  exists zx, 1%N, (zp false), reweighted, here, 0%N, [(mkPoseID 0 5, zpose 0 0); (mkPoseID 0 6, zpose 6 4)].
  split; [apply told_ok; [apply reweighted_ok|cbn; repeat split|constructor; [exact deliver_ok|constructor]]|exact (told_apart_spec _ _ _ _ reinit_told)].
Qed.
Lemma bad_robust : exists (x : Ext Q) id p os, Forall aop_ok (os ++ [AInitRobust]) /\ blamed x id p os AInitRobust [].
Proof.
  exists zx, 1%N, (zp false), reweighted.
  split; [apply told_ok; [apply reweighted_ok|exact I|constructor]|exact (told_apart_spec _ _ _ _ robust_told)].
Qed.
