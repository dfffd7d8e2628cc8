(** A team of agents exchanging messages.
    The library leaves the transport to its users; examples/MultiRobotExample.cpp:182-204
    asks each robot for its public poses ([getSharedPoseDict], [getAuxSharedPoseDict])
    and status ([getStatus]) and hands them to [setNeighborStatus],
    [updateNeighborPoses] and [updateAuxNeighborPoses] of another.  Here the messages
    go through a network that keeps everything sent: delivery may be late, repeated,
    out of order or never happen. *)
From Coq Require Import List NArith ZArith Bool.
From Verif Require Import Base SMap Num ModelTypes ModelPoseGraph ModelPoses ModelSolver ModelAgent.
Import ListNotations.
Local Open Scope res_scope.

Section Team.
Context {S : Type} `{Num S}.

(** Public poses of a robot; [pm_aux]: the auxiliary ones. *)
Record PoseMsg := mkPoseMsg { pm_from : N; pm_aux : bool; pm_dict : list (PoseID * Mx S) }.
(** Robot [k] is at position [k]. *)
Record Team := mkTeam { tm_agents : list (Agent S); tm_poses : list PoseMsg; tm_status : list (Status S) }.

(** Calls, messages sent and delivered (MultiRobotExample.cpp:175-208 uses one fixed order of these). *)
Inductive top :=
| TCall (k : N) (o : aop S)
| TSendPoses (k : N) (aux : bool) (to : option N)
| TSendStatus (k : N)
| TPoses (j : N) (i : nat)
| TStatus (j : N) (i : nat).

(** Not in the code: robot [k] of the list, and its replacement. *)
Definition tm_at (t : Team) (k : N) : res (Agent S) :=
  match nth_error (tm_agents t) (N.to_nat k) with Some a => Ok a | None => UB end.
Definition tm_put (t : Team) (k : N) (a : Agent S) : Team :=
  mkTeam (list_update (tm_agents t) (N.to_nat k) (fun _ => a)) (tm_poses t) (tm_status t).

(** The four getters (PGOAgent.cpp:97-166). *)
Definition tm_get (aux : bool) (to : option N) (a : Agent S) : res (option (list (PoseID * Mx S))) :=
  match aux, to with
  | false, None => ag_getSharedPoseDict a
  | false, Some k => ag_getSharedPoseDictWithNeighbor a k
  | true, None => ag_getAuxSharedPoseDict a
  | true, Some k => ag_getAuxSharedPoseDictWithNeighbor a k
  end.

(** MultiRobotExample.cpp:186-191 and 197-203, cut into steps: getters of the sender, then
    [setNeighborStatus] (PGOAgent.h:370-372), [updateNeighborPoses] and [updateAuxNeighborPoses]
    (PGOAgent.cpp:650-702) of the receiver. *)
Definition tm_step (x : Ext S) (t : Team) (o : top) : res Team :=
  match o with
  | TCall k o => do a <- tm_at t k; do a <- ag_step x a o; Ok (tm_put t k a)
  | TSendPoses k aux to =>
      do a <- tm_at t k;
      do D <- tm_get aux to a;
      match D with
      | Some D => Ok (mkTeam (tm_agents t) (tm_poses t ++ [mkPoseMsg (a_id a) aux D]) (tm_status t))
      | None => Ok t
      end
  | TSendStatus k =>
      do a <- tm_at t k;
      do a <- ag_step x a AGetStatus;
      let t := tm_put t k a in
      Ok (mkTeam (tm_agents t) (tm_poses t) (tm_status t ++ [a_status a]))
  | TPoses j i =>
      match nth_error (tm_poses t) i with
      | None => UB
      | Some m =>
          do a <- tm_at t j;
          do a <- ag_step x a (if pm_aux m then AUpdAux (pm_from m) (pm_dict m) else AUpdNbr (pm_from m) (pm_dict m));
          Ok (tm_put t j a)
      end
  | TStatus j i =>
      match nth_error (tm_status t) i with
      | None => UB
      | Some s => do a <- tm_at t j; do a <- ag_step x a (AStatus s); Ok (tm_put t j a)
      end
  end.
Definition tm_run (x : Ext S) (t : Team) (os : list top) : res Team := foldM (tm_step x) t os.

(** [m] robots with parameters [P] (MultiRobotExample.cpp:126-132). *)
Definition tm_new (x : Ext S) (P : N -> AgentParams S) (m : N) : res Team :=
  do l <- mapM (fun k => newAgent x (N.of_nat k) (P (N.of_nat k))) (seq 0 (N.to_nat m));
  Ok (mkTeam l [] []).
End Team.
Arguments PoseMsg : clear implicits.
Arguments Team : clear implicits.
Arguments top : clear implicits.
