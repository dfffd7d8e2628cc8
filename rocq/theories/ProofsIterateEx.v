(** Example iterations. *)
From Coq Require Import List NArith ZArith Bool Lia QArith.
From Verif Require Import Base SMap Num ModelTypes ModelPoseGraph ModelProblem ModelRobust ModelPoses ModelSolver ModelAgent
  SpecPoseGraph SpecAgent ProofsPoseGraph ProofsPGHist ProofsAgent ProofsIterate ProofsAgentEx.
Import ListNotations.

(** The translations of an array, first two coordinates. *)
Definition spots (T : PoseArr Q) : list (Q * Q) :=
  map (fun i => (pa_X T 0%nat (3 * i + 2)%nat, pa_X T 1%nat (3 * i + 2)%nat)) (seq 0 (pa_n T)).

Lemma ex_iterate : exists a, areach zx 1 (zp true) (join ++ [aux]) a /\
  (a_state a = INITIALIZED /\ spots (a_X a) = [(3, 0); (4, 0); (5, 0)]%Q /\
   match ag_iterate zx zopt a true with
   | Ok (a', s) => s = true /\ (u32 (a_iter a' + 1) mod p_restart (zp true) =? 0)%N = false /\
       spots (a_Y a') = [(3, 0); (4, 0); (5, 0)]%Q /\ spots (a_X a') = [(6, 0); (8, 0); (10, 0)]%Q /\
       spots (a_V a') = [(9 # 2, 0); (6, 0); (15 # 2, 0)]%Q
   | _ => False end).
Proof. apply run_reach; [vm_compute; auto 10|apply Forall_app; split; [apply join_ok|repeat constructor; apply aux_ok]]. Qed.

Lemma ex_iterate_plain : exists a, areach zx 1 (zp false) join a /\
  (a_state a = INITIALIZED /\ spots (a_X a) = [(3, 0); (4, 0); (5, 0)]%Q /\
   match ag_iterate zx zopt a true with
   | Ok (a', s) => s = true /\ spots (a_X a') = [(6, 0); (8, 0); (10, 0)]%Q
   | _ => False end).
Proof. apply run_reach; [vm_compute; auto|apply join_ok]. Qed.

(** A restart without the neighbour's poses: nothing moves, success is reported
    and the robot calls itself ready. *)
Lemma restart_silent : exists a a', areach zx 1 (zp true) (join ++ [aux; AIterate zopt true; AClearNbr; aux]) a /\
  ag_iterate zx zopt a true = Ok (a', true) /\ missing_pose a (a_ndict a) /\
  a_X a' = a_X a /\ st_ready (a_status a') = true /\ st_change (a_status a') = 0%Q.
Proof.
  destruct (run_reach 1 true (join ++ [aux; AIterate zopt true; AClearNbr; aux])
    (fun a => a_ndict a = [] /\ a_state a = INITIALIZED /\
       match pg_shared (a_pg a) with m :: _ => isNeighborActive (a_pg a) (other_robot (a_id a) m) = Ok true | [] => False end /\
       match ag_iterate zx zopt a true with
       | Ok (a', s) => s = true /\ a_iter a' = 2%N /\ st_ready (a_status a') = true /\ st_change (a_status a') = 0%Q | _ => False end))
    as (a & R & Hd & Hs & Hm & E).
  - vm_compute. auto 10.
  - apply Forall_app; split; [apply join_ok|]. repeat (apply Forall_cons || apply Forall_nil); try exact I; apply aux_ok.
  - destruct (ag_iterate zx zopt a true) as [[a' s]| |] eqn:Ei; try contradiction. destruct E as (-> & Hi & E).
    assert (M : missing_pose a (a_ndict a)).
    { destruct (pg_shared (a_pg a)) as [|m l] eqn:Es; [contradiction|]. exists m. rewrite Es. split; [left; auto|]. split; auto. rewrite Hd. reflexivity. }
    exists a, a'. split; [exact R|]. split; [exact Ei|]. split; [exact M|]. split; [|exact E].
    destruct (c57_accel _ _ _ _ _ _ _ _ _ R eq_refl Hs Ei) as (_ & _ & Y & X & V & _ & _ & _ & Q).
    rewrite Hi in Q. change ((u32 (2 + 1) mod p_restart (zp true) =? 0)%N) with true in Q.
    destruct Q as (s' & Q1 & Q2). rewrite (proj2 (Q2 eq_refl) M) in Q1. exact Q1.
Qed.
