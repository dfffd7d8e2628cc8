(** Concrete graphs over the reals for the examples of PropCost. *)
From Coq Require Import List NArith ZArith Arith Bool Lia Reals Lra Permutation.
From Verif Require Import Base SMap Num RSum ModelTypes ModelPoseGraph ModelProblem ModelChordal SpecPoseGraph SpecPGHist SpecCost
  ProofsPoseGraph ProofsPGHist ProofsPGData ProofsLaplacian ProofsPGMain ProofsPGCex ProofsCost ProofsCost2 ProofsCost3 ProofsCost4.
Import ListNotations.
Local Open Scope R_scope.
Implicit Types (g : PoseGraph R) (m : Meas R).

(** Quarter turn with translation (x, 1). *)
Definition exR_meas (r1 p1 r2 p2 : N) (x : R) : Meas R :=
  mkMeas r1 r2 p1 p2 (mlit 2 2 [[0; -1]; [1; 0]]) (mlit 2 1 [[x]; [1]]) 2 3 false 1.
Definition exR_priv : list (Meas R) := [exR_meas 0 0 0 1 1; exR_meas 0 1 0 2 2; exR_meas 0 0 0 2 3].
Definition exR_shared : list (Meas R) := [exR_meas 0 1 1 0 5; exR_meas 2 4 0 2 6].

Fixpoint discR (stale : bool) g (os : list (pgop R)) : bool :=
  match os with
  | [] => negb stale
  | o :: os' => (negb (reads o) || negb stale) &&
      match pg_step g o with
      | Ok g' => discR (if cleans o then false else stale || dirties g o) g' os'
      | _ => true end
  end.
Lemma discR_spec os : forall stale g, discR stale g os = true -> disciplined stale g os.
Proof.
  induction os as [|o os IH]; intros stale g T; simpl in T |- *.
  - apply negb_true_iff; auto.
  - apply andb_true_iff in T. destruct T as [T1 T2]. split.
    + intros Rd. rewrite Rd in T1. simpl in T1. apply negb_true_iff in T1. auto.
    + intros g' E. rewrite E in T2. auto.
Qed.

Definition clean_test (id : N) (r d : nat) (os : list (pgop R)) (P : PoseGraph R -> bool) : bool :=
  match newPoseGraph id r d with
  | Ok g0 => discR false g0 os && match pg_run g0 os with Ok g => P g | _ => false end
  | _ => false end.
Lemma clean_test_spec id r d os P : clean_test id r d os P = true -> Forall op_ok os ->
  exists g, clean id r d os g /\ P g = true.
Proof.
  unfold clean_test. destruct (newPoseGraph id r d) as [g0| |] eqn:E0; try discriminate. intros T F.
  apply andb_true_iff in T. destruct T as [T1 T2].
  destruct (pg_run g0 os) as [g| |] eqn:E; try discriminate. exists g. split; auto.
  exists g0. split; [exact E0|]. split; [exact F|]. split; [apply discR_spec; auto|auto].
Qed.

(** A lifted pose: first two columns orthonormal, then a translation. *)
Definition exR_pose (r : nat) (x : R) : Mx R := mlit r 3 [[1; 0; x]; [0; 1; 2]; [0; 0; 0]].
Definition exR_nbr (r : nat) : list (PoseID * Mx R) :=
  [(mkPoseID 1 0, exR_pose r 5); (mkPoseID 2 4, exR_pose r 6)].
Definition exR_ops : list (pgop R) :=
  map PAdd (exR_priv ++ exR_shared) ++ [PSetPrior 1 (exR_pose 3 1); PSetNbr (exR_nbr 3)].
Definition exR_X (r n : nat) : Mx R := mkMx r (3 * n) (fun a j => INR (a + j)).

Definition okf (X : Mx R) g : bool := match qp_f g X with Ok _ => true | _ => false end.

Ltac opsR := repeat (apply Forall_app; split); repeat constructor.
Ltac by_clean id r d os P :=
  let g := fresh "g" in let C := fresh "C" in let T := fresh "T" in
  destruct (clean_test_spec id r d os P) as (g & C & T); [vm_compute; reflexivity | opsR | ].

(** Sizes of the cached neighbour poses, as a test. *)
Definition npok g : bool := forallb (fun kv => Nat.eqb (mrows (snd kv)) (pg_r g) && Nat.eqb (mcols (snd kv)) (S (pg_d g))) (pg_nposes g).
Lemma npok_spec g : npok g = true -> nposes_ok g.
Proof.
  intros H p Z Hin. unfold npok in H. rewrite forallb_forall in H. specialize (H _ Hin). cbn in H.
  apply andb_prop in H. destruct H as [A B]. apply Nat.eqb_eq in A, B. auto.
Qed.

Lemma exR_cost : exists g g' v, clean 0 3 2 exR_ops g /\ nposes_ok g /\ qp_f g (exR_X 3 3) = Ok (g', v) /\
  length (pg_shared g) = 2%nat /\ length (pg_priors g) = 1%nat /\ length (pg_odom g ++ pg_priv g) = 3%nat.
Proof.
  by_clean 0%N 3%nat 2%nat exR_ops (fun g => npok g && okf (exR_X 3 3) g && Nat.eqb (length (pg_shared g)) 2 &&
    Nat.eqb (length (pg_priors g)) 1 && Nat.eqb (length (pg_odom g ++ pg_priv g)) 3).
  rewrite !andb_true_iff, !Nat.eqb_eq in T. destruct T as ((((T1 & T2) & T3) & T4) & T5).
  unfold okf in T2. destruct (qp_f g (exR_X 3 3)) as [[g' v]| |] eqn:E; try discriminate.
  exists g, g', v. split; [auto|]. split; [apply npok_spec; auto|]. auto.
Qed.

Lemma exR_derivatives : exists g g1 v g2 D g3 Hs, clean 0 3 2 exR_ops g /\ qp_f g (exR_X 3 3) = Ok (g1, v) /\
  qp_grad g (exR_X 3 3) = Ok (g2, D) /\ qp_hess g (exR_X 3 3) = Ok (g3, Hs) /\ same_size (exR_X 3 3) (exR_X 3 3) = true.
Proof.
  destruct exR_cost as (g & g' & v & C & _ & E & _).
  assert (S0 : same_size (exR_X 3 3) (exR_X 3 3) = true) by reflexivity.
  destruct (derivatives_defined _ _ _ _ _ _ _ _ _ C E S0) as ((g2 & D & E2) & (g3 & Hs & E3)).
  exists g, g', v, g2, D, g3, Hs. auto.
Qed.

Lemma exR_nonneg (ms : list (Meas R)) : Forall (fun m => mweight m = 1 /\ mkappa m = 2 /\ mtau m = 3) ms ->
  forall m, In m ms -> nonneg_meas m.
Proof. intros F m Hin. rewrite Forall_forall in F. destruct (F m Hin) as (A & B & C). unfold nonneg_meas. rewrite A, B, C. lra. Qed.


Definition clean_prop (id : N) (r d : nat) (os : list (pgop R)) (P : PoseGraph R -> Prop) : Prop :=
  match newPoseGraph id r d with
  | Ok g0 => discR false g0 os = true /\ match pg_run g0 os with Ok g => P g | _ => False end
  | _ => False end.
Lemma clean_prop_spec id r d os P : clean_prop id r d os P -> Forall op_ok os ->
  exists g, clean id r d os g /\ P g.
Proof.
  unfold clean_prop. destruct (newPoseGraph id r d) as [g0| |] eqn:E0; try tauto. intros [T1 T2] F.
  destruct (pg_run g0 os) as [g| |] eqn:E; try tauto. exists g. split; auto.
  exists g0. split; [exact E0|]. split; [exact F|]. split; [apply discR_spec; auto|auto].
Qed.

Definition okQ n g : bool := match quadraticMatrix g with Ok (_, Q) => Nat.eqb (mrows Q) n | _ => false end.

Lemma exR_psd : exists g g' Q, clean 0 3 2 exR_ops g /\ (forall m, In m (measurements g) -> nonneg_meas m) /\
  quadraticMatrix g = Ok (g', Q) /\ mrows Q = 9%nat.
Proof.
  destruct (clean_prop_spec 0 3 2 exR_ops (fun g => okQ 9 g = true /\
     Forall (fun m => mweight m = 1 /\ mkappa m = 2 /\ mtau m = 3) (measurements g))) as (g & C & T & F).
  - vm_compute. repeat constructor.
  - opsR.
  - exists g. unfold okQ in T. destruct (quadraticMatrix g) as [[g' Q]| |]; try discriminate.
    exists g', Q. split; [auto|]. split; [apply exR_nonneg; auto|]. split; auto. apply Nat.eqb_eq; auto.
Qed.

(** Gauge: private edges only; quarter turn about the third axis. *)
Definition exR_O : nat -> nat -> R := mlit 3 3 [[0; -1; 0]; [1; 0; 0]; [0; 0; 1]].
Definition exR_v (a : nat) : R := INR (S a).
Definition exR_moved (X : Mx R) : Mx R :=
  mkMx (mrows X) (mcols X) (fun a j => rsum 3 (fun b => exR_O a b * X b j) + (if Nat.eqb (j mod 3) 2 then exR_v a else 0)).

Lemma exR_gauge : exists g g' f, clean 0 3 2 (map PAdd exR_priv) g /\ pg_shared g = [] /\ pg_priors g = [] /\
  orthonormal 3 3 exR_O /\ moved 3 2 (N.to_nat (pg_n g)) exR_O exR_v (exR_X 3 3) (exR_moved (exR_X 3 3)) /\
  same_size (exR_moved (exR_X 3 3)) (exR_X 3 3) = true /\ qp_f g (exR_X 3 3) = Ok (g', f) /\ pg_n g = 3%N.
Proof.
  by_clean 0%N 3%nat 2%nat (map PAdd exR_priv) (fun g => okf (exR_X 3 3) g && Nat.eqb (length (pg_shared g)) 0 &&
    Nat.eqb (length (pg_priors g)) 0 && (pg_n g =? 3)%N).
  rewrite !andb_true_iff, !Nat.eqb_eq, N.eqb_eq in T. destruct T as (((T1 & T2) & T3) & T4).
  unfold okf in T1. destruct (qp_f g (exR_X 3 3)) as [[g' f]| |] eqn:E; try discriminate.
  exists g, g', f. split; [auto|]. split; [apply length_zero_iff_nil; auto|]. split; [apply length_zero_iff_nil; auto|].
  split.
  - intros b c Hb Hc. do 3 (destruct b as [|b]; [do 3 (destruct c as [|c]; [cbn; lra|]); lia|]); lia.
  - split; [|auto]. intros a i c Ha Hi Hc. unfold exR_moved. cbn [mat].
    replace ((i * 3 + c) mod 3)%nat with c; [reflexivity|].
    rewrite Nat.add_comm, Nat.mod_add by lia. symmetry. apply Nat.mod_small. lia.
Qed.

(** Lifting from rank 2 to rank 3. *)
Definition exR_Y : Mx R := mlit 3 2 [[0; -1]; [1; 0]; [0; 0]].
Definition exR_ops0 : list (pgop R) :=
  map PAdd (exR_priv ++ exR_shared) ++ [PSetPrior 1 (exR_pose 2 1); PSetNbr (exR_nbr 2)].
Definition exR_ops1 : list (pgop R) :=
  map PAdd (exR_priv ++ exR_shared) ++ [PSetPrior 1 (mmul exR_Y (exR_pose 2 1));
     PSetNbr (map (fun kv => (fst kv, mmul exR_Y (snd kv))) (exR_nbr 2))].


Lemma exR_Y_ok : orthonormal 3 2 exR_Y.
Proof. intros b c Hb Hc. do 2 (destruct b as [|b]; [do 2 (destruct c as [|c]; [cbn; lra|]); lia|]); lia. Qed.

Lemma exR_lift : exists g0 g g1 v0 g2 v, clean 0 2 2 exR_ops0 g0 /\ clean 0 3 2 exR_ops1 g /\
  nposes_ok g0 /\ nposes_ok g /\ lifted exR_Y g0 g /\ orthonormal 3 2 exR_Y /\
  qp_f g0 (exR_X 2 3) = Ok (g1, v0) /\ qp_f g (mmul exR_Y (exR_X 2 3)) = Ok (g2, v).
Proof.
  assert (A : clean_prop 0 2 2 exR_ops0 (fun g0 => clean_prop 0 3 2 exR_ops1 (fun g =>
    npok g0 = true /\ npok g = true /\ okf (exR_X 2 3) g0 = true /\ okf (mmul exR_Y (exR_X 2 3)) g = true /\ lifted exR_Y g0 g))).
  { vm_compute. repeat (split; [reflexivity|]). repeat split; reflexivity. }
  destruct (clean_prop_spec _ _ _ _ _ A) as (g0 & C0 & B); [opsR|]. clear A.
  destruct (clean_prop_spec _ _ _ _ _ B) as (g & C & P1 & P2 & P3 & P4 & L); [opsR|]. clear B.
  unfold okf in P3, P4. destruct (qp_f g0 (exR_X 2 3)) as [[g1 v0]| |] eqn:E0; try discriminate.
  destruct (qp_f g (mmul exR_Y (exR_X 2 3))) as [[g2 v]| |] eqn:E; try discriminate.
  exists g0, g, g1, v0, g2, v. split; [auto|]. split; [auto|]. split; [apply npok_spec; auto|]. split; [apply npok_spec; auto|].
  split; [auto|]. split; [apply exR_Y_ok|]. auto.
Qed.

(** Team of two robots joined by one edge. *)
Definition exR_team : list (Meas R) := [exR_meas 0 0 0 1 1; exR_meas 1 0 1 1 2; exR_meas 0 1 1 0 5].
Definition exR_TX (x : R) (k : N) : Mx R := mkMx 3 6 (fun a j => if (k =? 0)%N then x * INR (a + j) else INR (a * j)).
Definition exR_tops : list (pgop R) :=
  map PAdd [exR_meas 0 0 0 1 1; exR_meas 0 1 1 0 5] ++ [PSetNbr [(mkPoseID 1 0, mkMx 3 3 (fun a c => exR_TX 0 1 a c))]].

Lemma exR_team_step : exists X X' : N -> Mx R, X 0%N 1%nat 1%nat <> X' 0%N 1%nat 1%nat /\ NoDup [0%N; 1%N] /\
  team_step 3 2 exR_team [0%N; 1%N] (fun _ => []) X X'.
Proof.
  assert (A : clean_prop 0 3 2 exR_tops (fun g => npok g = true /\ okf (exR_TX 1 0) g = true /\ okf (exR_TX 2 0) g = true /\
     knows 0 exR_team g /\ pg_priors g = [] /\ forall x, current g (exR_TX x))).
  { vm_compute. split; [reflexivity|]. split; [reflexivity|]. split; [reflexivity|]. split; [reflexivity|].
    split; [apply Permutation_refl|]. split; [reflexivity|]. intros x m [<-|[]]. eexists. split; [reflexivity|].
    intros a c Ha Hc. reflexivity. }
  destruct (clean_prop_spec _ _ _ _ _ A) as (g & C & P1 & P2 & P3 & K & PR & CU); [opsR|]. clear A.
  unfold okf in P2, P3. destruct (qp_f g (exR_TX 1 0)) as [[g1 v1]| |] eqn:E1; try discriminate.
  destruct (qp_f g (exR_TX 2 0)) as [[g2 v2]| |] eqn:E2; try discriminate.
  assert (ND : NoDup [0%N; 1%N]) by (repeat constructor; cbn; intuition discriminate).
  assert (OT : forall x y j, j <> 0%N -> exR_TX x j = exR_TX y j).
  { intros x y j Hj. unfold exR_TX. apply N.eqb_neq in Hj. rewrite Hj. reflexivity. }
  destruct (Rle_dec v2 v1) as [L|L].
  - exists (exR_TX 1), (exR_TX 2). split; [cbn; lra|]. split; [auto|].
    exists 0%N, exR_tops, g, g1, g2, v1, v2. split; [cbn; auto|]. split; [auto|]. split; [auto|]. split; [auto|].
    split; [auto|]. split; [apply npok_spec; auto|]. auto.
  - exists (exR_TX 2), (exR_TX 1). split; [cbn; lra|]. split; [auto|].
    exists 0%N, exR_tops, g, g2, g1, v2, v1. split; [cbn; auto|]. split; [auto|]. split; [auto|]. split; [auto|].
    split; [auto|]. split; [apply npok_spec; auto|]. split; [auto|]. split; [auto|]. split; [lra|auto].
Qed.

Lemma exR_chordal : exists B1 B2 B3, constructBMatrices (exR_priv) = Ok (B1, B2, B3) /\
  (forall m, In m exR_priv -> 0 <= mkappa m) /\ (forall m, In m exR_priv -> 0 <= mtau m) /\
  mrows B3 = 12%nat /\ mcols B3 = 12%nat /\ edges_dim exR_priv = 2%nat.
Proof.
  do 3 eexists. split; [reflexivity|].
  split; [intros m [<-|[<-|[<-|[]]]]; cbn; lra|]. split; [intros m [<-|[<-|[<-|[]]]]; cbn; lra|]. auto.
Qed.

Lemma exR_error : exists v, computeMeasurementError (exR_meas 0 0 0 1 1) (mident 2) (mlit 2 1 [[3]; [4]])
    (mlit 2 2 [[0; -1]; [1; 0]]) (mlit 2 1 [[4]; [5]]) = Ok v /\ v = 0.
Proof. eexists. split; [reflexivity|]. cbn. lra. Qed.
