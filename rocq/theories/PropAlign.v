(** C60: joining a neighbour's frame by robust averaging. *)
From Coq Require Import List NArith Bool Arith Sorted Reals.
From Verif Require Import Base SMap Num RSum Det ModelTypes ModelPoseGraph ModelProblem ModelRobust ModelPoses ModelSolver ModelAgent ModelAlign
  SpecPoseGraph SpecCost SpecSolver SpecAgent SpecFrames SpecAlign ProofsAngle ProofsAlign ProofsFramesEx ProofsAlignEx ProofsAgent4.
Import ListNotations.
Local Open Scope R_scope.

(** Two rotations enclose exactly one angle, and comparing their chordal distance
    with [angular2ChordalSO3(r)] compares that angle with [r]. *)
Theorem C60_angle : forall d A B, (d = 2 \/ d = 3)%nat -> rot_block d A -> rot_block d B ->
  exists t, angle d A B t /\ (forall t', angle d A B t' -> t' = t) /\
  forall r, 0 <= r <= PI -> (dist2 d d A B < angular2ChordalSO3 sin r * angular2ChordalSO3 sin r <-> t < r).
Proof. exact angle_threshold. Qed.
Print Assumptions C60_angle.

Example C60_angle_example : angle 3 (axis_rot 0 0 1 0) (axis_rot 0 0 1 (1 / 4)) (1 / 4) /\
  rotation 3 (mkMx 3 3 (axis_rot 0 0 1 0)) /\ rotation 3 (mkMx 3 3 (axis_rot 0 0 1 (1 / 4))).
Proof. exact ex_angle. Qed.

(** One candidate per shared measurement whose neighbour pose was sent, in order:
    the only change of frame after which the measurement holds. *)
Theorem C60_candidates : forall x id p os (a : Agent R) k dict Tn T YL, areach x id p os a ->
  a_TLocal a = Some T -> a_YLift a = Some YL ->
  hears (x_minv x) id k (p_r p) (p_d p) (pg_shared (a_pg a)) YL T Tn dict ->
  exists Rs ts Ws, ag_candidates x a k dict = Ok (Rs, ts) /\
    candidates id (p_d p) Tn T (evidence id k dict (pg_shared (a_pg a))) Ws /\ Forall (fun W => rot_block (p_d p) (Num.mat W)) Ws /\
    Forall2 (same_part (p_d p) 0 (p_d p)) Rs Ws /\ Forall2 (same_part (p_d p) (p_d p) 1) ts Ws /\
    (forall Ws', candidates id (p_d p) Tn T (evidence id k dict (pg_shared (a_pg a))) Ws' ->
       Forall2 (fun W' W => beq (p_d p) (Num.mat W') (Num.mat W)) Ws' Ws).
Proof. exact candidates_run. Qed.
Print Assumptions C60_candidates.

(** The result: a rotation [Q] that minimises a weighted sum of squared distances;
    the candidates used are within half a radian of it, and they are all such
    unless the averaging stopped after its 1000 rounds; the
    translation is their mean; nothing if they are too few. *)
Theorem C60_two_stage : forall x id p os (a : Agent R) k dict Tn T YL Ws, areach x id p os a ->
  let d := p_d p in let ms := evidence id k dict (pg_shared (a_pg a)) in
  (d = 2 \/ d = 3)%nat -> a_TLocal a = Some T -> a_YLift a = Some YL ->
  hears (x_minv x) id k (p_r p) d (pg_shared (a_pg a)) YL T Tn dict -> candidates id d Tn T ms Ws ->
  svd_sized (x_svd_full x) d -> averages_ok (x_svd_full x) d Ws -> det_ok (x_det x) d -> div_ok (x_mudiv x) -> div_zero_big (x_mudiv x) ->
  x_maxrot x = angular2ChordalSO3 sin (1 / 2) -> (1 <= p_mininl p)%N ->
  exists o, ag_twoStage x a k dict = Ok o /\ (ms = [] -> o = None) /\
  (ms <> [] -> exists Q used, rotation d Q /\ StronglySorted lt used /\
    (forall i, In i used -> (i < length ms)%nat /\ within (1 / 2) d Q (pick Ws i)) /\
    ((exists Rs calls, Forall2 (same_part d 0 d) Rs Ws /\
        robustRotation_calls (x_svd_full x) (x_det x) (x_mudiv x) Rs (ones (length Rs)) (x_maxrot x) = Ok (Q, used, calls) /\ length calls = 1001%nat) \/
     forall i, (i < length ms)%nat -> within (1 / 2) d Q (pick Ws i) -> In i used) /\
    (exists ws, length ws = length ms /\ 0 < nsumL (fun w => w) ws /\ forall Q', rotation d Q' -> spread d d ws Ws Q <= spread d d ws Ws Q') /\
    ((forall W, In W Ws -> beq d (Num.mat W) (pick Ws 0)) -> used = seq 0 (length ms) /\ forall i j, (i < d)%nat -> (j < d)%nat -> Q i j = pick Ws 0 i j) /\
    match o with
    | None => (N.of_nat (length used) < p_mininl p)%N
    | Some P => (p_mininl p <= N.of_nat (length used))%N /\ rigid d P /\
        (forall i j, (i < d)%nat -> (j < d)%nat -> pa_X P i j = Q i j) /\ mean_translation d Ws used (pa_X P)
    end).
Proof. exact two_stage. Qed.
Print Assumptions C60_two_stage.

(** If every measurement asks for the same change of frame, that one is returned. *)
Theorem C60_consistent : forall x id p os (a : Agent R) k dict Tn T YL Ws, areach x id p os a ->
  let d := p_d p in let ms := evidence id k dict (pg_shared (a_pg a)) in
  (d = 2 \/ d = 3)%nat -> a_TLocal a = Some T -> a_YLift a = Some YL ->
  hears (x_minv x) id k (p_r p) d (pg_shared (a_pg a)) YL T Tn dict -> candidates id d Tn T ms Ws ->
  svd_sized (x_svd_full x) d -> averages_ok (x_svd_full x) d Ws -> det_ok (x_det x) d -> div_ok (x_mudiv x) -> div_zero_big (x_mudiv x) ->
  forall W0, x_maxrot x = angular2ChordalSO3 sin (1 / 2) -> (1 <= p_mininl p)%N -> (p_mininl p <= N.of_nat (length ms))%N ->
  (forall W, In W Ws -> beq d (Num.mat W) W0) -> exists P, ag_twoStage x a k dict = Ok (Some P) /\ rigid d P /\ beq d (pa_X P) W0.
Proof. exact two_consistent. Qed.
Print Assumptions C60_consistent.

(** A waiting robot either stays as it is or enters the frame found. *)
Theorem C60_enters : forall x id p os (a a' : Agent R) k dict, areach x id p os a ->
  a_state a = WAIT_FOR_INITIALIZATION -> receivable a k -> ag_updateNeighborPoses x a k dict = Ok a' ->
  ag_twoStage x a k dict = Ok None /\ a' = a \/
  exists P T YL, ag_twoStage x a k dict = Ok (Some P) /\ a_state a' = INITIALIZED /\ a_TLocal a = Some T /\ a_YLift a = Some YL /\
    (rigid (p_d p) P -> forall i l j, (i < num_poses a)%nat -> (l < p_r p)%nat -> (j < p_d p + 1)%nat ->
       pblk (a_X a') i l j = lift (p_d p) YL (comp (p_d p) (pa_X P) (pblk T i)) l j).
Proof. exact update_enters_top. Qed.
Print Assumptions C60_enters.

(** Afterwards the measurements whose candidate is the frame found have residual zero. *)
Theorem C60_residual : forall x id p os (a a' : Agent R) k dict, areach x id p os a ->
  a_state a = WAIT_FOR_INITIALIZATION -> receivable a k -> ag_updateNeighborPoses x a k dict = Ok a' ->
  forall Tn T YL P m, a_TLocal a = Some T -> a_YLift a = Some YL ->
  hears (x_minv x) id k (p_r p) (p_d p) (pg_shared (a_pg a)) YL T Tn dict -> msorted pose_ltb dict ->
  ag_twoStage x a k dict = Ok (Some P) -> rigid (p_d p) P -> In m (evidence id k dict (pg_shared (a_pg a))) ->
  joined id (p_d p) m (Tn (other_pose id m)) (pblk T (N.to_nat (frame_id (own_pose id m)))) (pa_X P) ->
  ag_residual a' m = Ok (Some 0).
Proof. exact update_residual_top. Qed.
Print Assumptions C60_residual.

(** Robot 1 waits, robot 0 sends two poses, the two measurements agree: robot 1 enters. *)
Example C60_example : exists a T P a', areach ax 1 (rp true) awaiting a /\ a_state a = WAIT_FOR_INITIALIZATION /\ receivable a 0 /\
  a_TLocal a = Some T /\ a_YLift a = Some rY /\ evidence 1 0 adict (pg_shared (a_pg a)) = [rm_in; rm_out] /\ msorted pose_ltb adict /\
  hears (x_minv ax) 1 0 3 2 (pg_shared (a_pg a)) rY T aTn adict /\ candidates 1 2 aTn T [rm_in; rm_out] aWs /\
  svd_sized (x_svd_full ax) 2 /\ averages_ok (x_svd_full ax) 2 aWs /\ det_ok (x_det ax) 2 /\ div_ok (x_mudiv ax) /\ div_zero_big (x_mudiv ax) /\
  ag_twoStage ax a 0 adict = Ok (Some P) /\ rigid 2 P /\ beq 2 (pa_X P) rTn /\
  ag_updateNeighborPoses ax a 0 adict = Ok a' /\ a_state a' = INITIALIZED /\
  ag_residual a' rm_in = Ok (Some 0) /\ ag_residual a' rm_out = Ok (Some 0).
Proof. exact ex_two. Qed.

(** The variant that averages rotation and translation together: the candidates
    used have weighted squared residual below the square of the threshold. *)
Theorem C60_one_stage : forall x id p os (a : Agent R) k dict Tn T YL Ws cbar, areach x id p os a ->
  let d := p_d p in let ms := evidence id k dict (pg_shared (a_pg a)) in
  (d = 2 \/ d = 3)%nat -> a_TLocal a = Some T -> a_YLift a = Some YL ->
  hears (x_minv x) id k (p_r p) d (pg_shared (a_pg a)) YL T Tn dict -> candidates id d Tn T ms Ws -> 0 < cbar ->
  svd_sized (x_svd_full x) d -> averages_ok (x_svd_full x) d Ws -> det_ok (x_det x) d -> div_ok (x_mudiv x) -> div_zero_big (x_mudiv x) ->
  exists o, ag_oneStage x cbar a k dict = Ok o /\ (ms = [] -> o = None) /\
  (ms <> [] -> exists Q t used, rotation d Q /\ StronglySorted lt used /\
    (forall i, In i used -> (i < length ms)%nat /\ exists th, angle d Q (pick Ws i) th /\ mismatch d th t (pick Ws i) < cbar * cbar) /\
    match o with
    | None => (N.of_nat (length used) < p_mininl p)%N
    | Some P => (p_mininl p <= N.of_nat (length used))%N /\ rigid d P /\
        (forall i j, (i < d)%nat -> (j < d)%nat -> pa_X P i j = Q i j) /\ (forall i, (i < d)%nat -> pa_X P i d = t i O)
    end) /\
  forall W0, (1 <= length ms)%nat -> (p_mininl p <= N.of_nat (length ms))%N -> (forall W, In W Ws -> beq d (Num.mat W) W0) ->
    exists P, o = Some P /\ beq d (pa_X P) W0.
Proof. exact one_stage. Qed.
Print Assumptions C60_one_stage.

Example C60_one_example : exists a T P, areach ax 1 (rp true) awaiting a /\ a_TLocal a = Some T /\
  hears (x_minv ax) 1 0 3 2 (pg_shared (a_pg a)) rY T aTn adict /\
  candidates 1 2 aTn T (evidence 1 0 adict (pg_shared (a_pg a))) aWs /\
  ag_oneStage ax (1 / 2) a 0 adict = Ok (Some P) /\ beq 2 (pa_X P) rTn.
Proof. exact ex_one. Qed.
