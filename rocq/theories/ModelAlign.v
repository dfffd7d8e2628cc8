(** Joining a neighbour's frame: the rotation threshold and the one-stage
    variant of the robust alignment. *)
From Coq Require Import List NArith ZArith Bool Arith.
From Verif Require Import Base SMap Num ModelTypes ModelPoseGraph ModelProblem ModelRobust ModelPoses ModelSolver ModelAgent.
Import ListNotations.
Local Open Scope res_scope.
Local Open Scope num_scope.

Section Align.
Context {S : Type} `{Num S}.

(** DPGO_utils.cpp:514-516 [angular2ChordalSO3]; the sine is an argument.
    PGOAgent.cpp:580 calls it with 0.5: this is [x_maxrot] of [Ext]. *)
Definition angular2ChordalSO3 (fsin : S -> S) (rad : S) : S :=
  nofZ 2 * nsqrt (nofZ 2) * fsin (rad / nofZ 2).

(** PGOAgent.cpp:604-648 [computeRobustNeighborTransform]; [None] is the result
    [false].  [cbar] is RobustCost::computeErrorThresholdAtQuantile(0.9, 3)
    ([errorThresholdAtQuantile] in ModelRobust.v). *)
Definition ag_oneStage (x : Ext S) (cbar : S) (a : Agent S) (k : N) (dict : list (PoseID * Mx S)) : res (option (PoseArr S)) :=
  do '(RVec, tVec) <- ag_candidates x a k dict;
  match RVec with
  | [] => Ok None
  | _ =>
      let kappa := map (fun o => (nofZ 182 / nofZ 100) * o) (ones (length RVec)) in
      let tau := map (fun o => (nofZ 1 / nofZ 100) * o) (ones (length RVec)) in
      do '(ROpt, tOpt, inliers) <- robustSinglePoseAveraging (x_svd_full x) (x_det x) (x_mudiv x) RVec tVec kappa tau cbar;
      if (N.of_nat (length inliers) <? p_mininl (a_params a))%N then Ok None else
      do T <- pose_identity (dimension a);
      do T <- pa_set_rot T 0 ROpt;
      do T <- pa_set_trans T 0 tOpt;
      Ok (Some T)
  end.
End Align.
