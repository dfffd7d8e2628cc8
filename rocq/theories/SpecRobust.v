(** Specifications for the robust costs (C17-C19, C51). *)
From Coq Require Import List NArith Reals.
From Verif Require Import Base Num ModelRobust.
Import ListNotations.
Local Open Scope R_scope.

(** A residual is a nonnegative number or +infinity (an overflowed residual). *)
Definition residual (r : XR) : Prop := r = PInf \/ exists x, r = Fin x /\ 0 <= x.

Definition pos_fin (x : XR) : Prop := exists r, x = Fin r /\ 0 < r.

(** A finite number between 0 and 1; in particular neither NaN nor infinite. *)
Definition in_unit (w : XR) : Prop := exists x, w = Fin x /\ 0 <= x <= 1.

(** Positive finite parameters. *)
Definition good_params (p : RobustParams XR) : Prop :=
  pos_fin (GNCBarc p) /\ pos_fin (GNCMuStep p) /\ pos_fin (GNCInitMu p) /\
  pos_fin (HuberThreshold p) /\ pos_fin (TLSThreshold p).

(** What a client may do with a robust cost object. *)
Inductive rc_op := RUpdate | RReset.
Definition rc_step {S} `{Num S} (c : RobustCost S) (o : rc_op) : RobustCost S :=
  match o with RUpdate => rc_update c | RReset => rc_reset c end.
Definition rc_run {S} `{Num S} (p : RobustParams S) (os : list rc_op) : RobustCost S :=
  fold_left rc_step os (rc_new p).

(** The objective of the GNC weight update for truncated least squares (Yang et
    al., "Graduated Non-Convexity", the problem whose solution is eq. (14)):
    minimise over w in [0,1]
      w r^2 + mu (1 - w) / (mu + w) c^2. *)
Definition gnc_objective (mu c r w : R) : R := w * (r * r) + mu * (1 - w) / (mu + w) * (c * c).

(** Robust loss functions, as functions of the residual, halved so that L2 is
    r^2/2.  They are the textbook losses (Zhang; Yang et al. for GNC_TLS). *)
Definition loss (p : RobustParams R) (mu r : R) : R :=
  match costType p with
  | L2 => r * r / 2
  | L1 => Rabs r
  | Huber => let c := HuberThreshold p in
             if Rle_dec (Rabs r) c then r * r / 2 else c * Rabs r - c * c / 2
  | TLS => let c := TLSThreshold p in Rmin (r * r) (c * c) / 2
  | GM => r * r / (1 + r * r) / 2
  | GNC_TLS =>
      let c := GNCBarc p in
      if Rle_dec (r * r) (mu / (mu + 1) * (c * c)) then r * r / 2
      else if Rle_dec ((mu + 1) / mu * (c * c)) (r * r) then c * c / 2
      else (2 * (c * sqrt (mu * (mu + 1))) * Rabs r - mu * (c * c + r * r)) / 2
  end.

Definition pos_params (p : RobustParams R) (mu : R) : Prop :=
  0 < HuberThreshold p /\ 0 < TLSThreshold p /\ 0 < GNCBarc p /\ 0 < mu.
