(** Eigen views of ROPTLIB variables.
    Source: src/manifold/LiftedSEVariable.cpp, include/DPGO/manifold/LiftedSEVariable.h,
    src/manifold/LiftedSEVector.cpp, include/DPGO/manifold/LiftedSEVector.h.
    The heap is modelled: ROPTLIB's [ProductElement] owns one block of doubles,
    [X_] is a pointer into it.  Simplified: the [unsigned] members are natural
    numbers (as in ModelPoses.v); the templates rotation_var_, translation_var_,
    pose_var_ own no doubles that are read; a block is not shared between
    elements (ROPTLIB may share after [CopyTo]; [ObtainWriteEntireData] then
    moves the element). *)
From Coq Require Import List Bool Arith.
From Verif Require Import Base Num ModelProblem ModelPoses.
Import ListNotations.
Local Open Scope res_scope.

Section Variable_.
Context {S : Type} `{Num S}.

(** A block of doubles; [None]: not initialised. *)
Record Block := mkBlock { b_len : nat; b_at : nat -> option S }.
Record Mem := mkMem { m_next : nat; m_blk : nat -> option Block }.
Definition mem0 : Mem := mkMem 0 (fun _ => None).
Definition upd {A} (f : nat -> A) (k : nat) (v : A) (j : nat) : A := if j =? k then v else f j.
Definition alloc (m : Mem) (len : nat) : nat * Mem :=
  (m_next m, mkMem (Datatypes.S (m_next m)) (upd (m_blk m) (m_next m) (Some (mkBlock len (fun _ => None))))).
(** Releasing a block twice is undefined. *)
Definition release (m : Mem) (a : nat) : res Mem :=
  match m_blk m a with Some _ => Ok (mkMem (m_next m) (upd (m_blk m) a None)) | None => UB end.
Definition block_at (m : Mem) (a : nat) : res Block := match m_blk m a with Some b => Ok b | None => UB end.
Definition put_block (m : Mem) (a : nat) (b : Block) : Mem := mkMem (m_next m) (upd (m_blk m) a (Some b)).

(** [memcpy(dst, X.data(), sizeof(double) * cnt)]; Eigen matrices are stored by
    columns. *)
Definition copy_in (m : Mem) (a : nat) (X : Mx S) (cnt : nat) : res Mem :=
  do b <- block_at m a;
  require ((cnt <=? mrows X * mcols X) && (cnt <=? b_len b)) (
  Ok (put_block m a (mkBlock (b_len b) (fun k => if k <? cnt then Some (X (k mod mrows X) (k / mrows X)) else b_at b k)))).

(** [Eigen::Map<Matrix>(p, rows, cols).block(0, c0, nr, nc)], read and assigned.
    Reading a double that was not initialised is undefined, so is a block outside
    of the map and a map outside of the memory. *)
Definition cell (b : Block) (k : nat) : S := match b_at b k with Some v => v | None => n0 end.
Definition is_set (b : Block) (k : nat) : bool := match b_at b k with Some _ => true | None => false end.
Definition map_ok (b : Block) (rows cols c0 nr nc : nat) : bool :=
  (rows * cols <=? b_len b) && (nr <=? rows) && (c0 + nc <=? cols).
Definition map_read (m : Mem) (a rows cols c0 nr nc : nat) : res (Mx S) :=
  do b <- block_at m a;
  require (map_ok b rows cols c0 nr nc) (
  require (forallb (fun j => forallb (fun i => is_set b ((c0 + j) * rows + i)) (seq 0 nr)) (seq 0 nc)) (
  Ok (mkMx nr nc (fun i j => cell b ((c0 + j) * rows + i))))).
Definition map_write (m : Mem) (a rows cols c0 nr nc : nat) (X : Mx S) : res Mem :=
  do b <- block_at m a;
  require (map_ok b rows cols c0 nr nc) (
  require (has_size X nr nc) (
  Ok (put_block m a (mkBlock (b_len b) (fun k =>
    let i := k mod rows in let j := k / rows in
    if (i <? nr) && (c0 <=? j) && (j <? c0 + nc) then Some (X i (j - c0)) else b_at b k))))).

(** LiftedSEVariable.h:120-130; [v_space]: the block of var_, [v_map], [v_rows],
    [v_cols]: the map X_. *)
Record Var := mkVar { v_r : nat; v_d : nat; v_n : nat; v_space : nat; v_map : nat; v_rows : nat; v_cols : nat }.

(** ROPTLIB: a product of n pairs of an r x d and an r x 1 matrix, one after the
    other. *)
Definition space_len (r d n : nat) : nat := n * (r * d + r).

(** LiftedSEVariable.cpp:72-102: the views [pose], [rotation], [translation]. *)
Definition v_pose (m : Mem) (v : Var) (i : nat) : res (Mx S) :=
  check (i <? v_n v) (map_read m (v_map v) (v_rows v) (v_cols v) (i * (v_d v + 1)) (v_r v) (v_d v + 1)).
Definition v_rot (m : Mem) (v : Var) (i : nat) : res (Mx S) :=
  check (i <? v_n v) (map_read m (v_map v) (v_rows v) (v_cols v) (i * (v_d v + 1)) (v_r v) (v_d v)).
Definition v_trans (m : Mem) (v : Var) (i : nat) : res (Mx S) :=
  check (i <? v_n v) (map_read m (v_map v) (v_rows v) (v_cols v) (i * (v_d v + 1) + v_d v) (v_r v) 1).
Definition v_set_pose (m : Mem) (v : Var) (i : nat) (X : Mx S) : res Mem :=
  check (i <? v_n v) (map_write m (v_map v) (v_rows v) (v_cols v) (i * (v_d v + 1)) (v_r v) (v_d v + 1) X).
Definition v_set_rot (m : Mem) (v : Var) (i : nat) (X : Mx S) : res Mem :=
  check (i <? v_n v) (map_write m (v_map v) (v_rows v) (v_cols v) (i * (v_d v + 1)) (v_r v) (v_d v) X).
Definition v_set_trans (m : Mem) (v : Var) (i : nat) (X : Mx S) : res Mem :=
  check (i <? v_n v) (map_write m (v_map v) (v_rows v) (v_cols v) (i * (v_d v + 1) + v_d v) (v_r v) 1 X).

(** Lines 57-59 [getData] *)
Definition v_getData (m : Mem) (v : Var) : res (Mx S) := map_read m (v_map v) (v_rows v) (v_cols v) 0 (v_rows v) (v_cols v).
(** Lines 61-69 [setData] *)
Definition v_setData (m : Mem) (v : Var) (X : Mx S) : res Mem :=
  check (mrows X =? v_r v) (check (mcols X =? (v_d v + 1) * v_n v) (
  copy_in m (v_space v) X (v_r v * (v_d v + 1) * v_n v))).

(** Lines 16-29: constructor; [Yinit.block(0, 0, d, d)] needs d <= r. *)
Definition v_new (m : Mem) (r d n : nat) : res (Mem * Var) :=
  let '(a, m) := alloc m (space_len r d n) in
  let v := mkVar r d n a a r ((d + 1) * n) in
  require (d <=? r) (
  let Yinit := msetblock (mzero r d) 0 0 (mident d) in
  do m <- foldM (fun m i => do m <- v_set_rot m v i Yinit; v_set_trans m v i (mzero r 1)) m (seq 0 n);
  Ok (m, v)).

(** ROPTLIB's own access to factor [i] of the product, and a write to all of it. *)
Definition lib_rot (m : Mem) (v : Var) (i : nat) : res (Mx S) :=
  do b <- block_at m (v_space v);
  Ok (mkMx (v_r v) (v_d v) (fun p q => cell b (i * (v_r v * v_d v + v_r v) + q * v_r v + p))).
Definition lib_trans (m : Mem) (v : Var) (i : nat) : res (Mx S) :=
  do b <- block_at m (v_space v);
  Ok (mkMx (v_r v) 1 (fun p q => cell b (i * (v_r v * v_d v + v_r v) + v_r v * v_d v + p))).
Definition lib_write (m : Mem) (v : Var) (rot trans : nat -> Mx S) : res Mem :=
  do b <- block_at m (v_space v);
  Ok (put_block m (v_space v) (mkBlock (b_len b) (fun k =>
    let w := v_r v * v_d v + v_r v in
    let i := k / w in let o := k mod w in
    if k <? b_len b then
      Some (if o <? v_r v * v_d v then rot i (o mod v_r v) (o / v_r v) else trans i (o - v_r v * v_d v) 0)
    else b_at b k))).

(** A program with named variables (addresses of C++ objects). *)
Record State := mkState { s_mem : Mem; s_obj : nat -> option Var }.
Definition state0 : State := mkState mem0 (fun _ => None).
Definition obj (s : State) (x : nat) : res Var := match s_obj s x with Some v => Ok v | None => UB end.
Definition unused (s : State) (x : nat) : bool := match s_obj s x with Some _ => false | None => true end.

Inductive Op :=
| ONew (x r d n : nat)
| OOfPoses (x : nat) (P : PoseArr S)
| OCopy (x y : nat)
| OAssign (x y : nat)
| OSet (x : nat) (X : Mx S)
| OPose (x i : nat) (X : Mx S)
| ORot (x i : nat) (X : Mx S)
| OTrans (x i : nat) (X : Mx S)
| OLib (x : nat) (rot trans : nat -> Mx S)
| ODelete (x : nat).

(** Lines 16-29 *)
Definition do_new (s : State) (x r d n : nat) : res State :=
  require (unused s x) (do '(m, v) <- v_new (s_mem s) r d n; Ok (mkState m (upd (s_obj s) x (Some v)))).
(** Lines 61-69, on object [x] *)
Definition do_set (s : State) (x : nat) (X : Mx S) : res State :=
  do v <- obj s x; do m <- v_setData (s_mem s) v X; Ok (mkState m (s_obj s)).
Definition on_view (s : State) (x : nat) (f : Mem -> Var -> res Mem) : res State :=
  do v <- obj s x; do m <- f (s_mem s) v; Ok (mkState m (s_obj s)).
(** Lines 41-55 [operator=]: the new element is made before the old one is
    released; [other] is read afterwards. *)
Definition do_assign (s : State) (x y : nat) : res State :=
  do o <- obj s y; do v <- obj s x;
  let '(a, m) := alloc (s_mem s) (space_len (v_r o) (v_d o) (v_n o)) in
  do m <- release m (v_space v);
  let v := mkVar (v_r o) (v_d o) (v_n o) a a (v_r o) ((v_d o + 1) * v_n o) in
  let s := mkState m (upd (s_obj s) x (Some v)) in
  do o <- obj s y;
  do X <- v_getData (s_mem s) o;
  do_set s x X.

Definition step (s : State) (op : Op) : res State :=
  match op with
  | ONew x r d n => do_new s x r d n
  | OOfPoses x P => (* lines 31-34 *) do s <- do_new s x (pa_r P) (pa_d P) (pa_n P); do_set s x (pa_X P)
  | OCopy x y => (* lines 36-39 *)
      do o <- obj s y;
      do s <- do_new s x (v_r o) (v_d o) (v_n o);
      do X <- v_getData (s_mem s) o; do_set s x X
  | OAssign x y => do_assign s x y
  | OSet x X => do_set s x X
  | OPose x i X => on_view s x (fun m v => v_set_pose m v i X)
  | ORot x i X => on_view s x (fun m v => v_set_rot m v i X)
  | OTrans x i X => on_view s x (fun m v => v_set_trans m v i X)
  | OLib x rot trans => on_view s x (fun m v => lib_write m v rot trans)
  | ODelete x => (* LiftedSEVariable.h:54 *)
      do v <- obj s x; do m <- release (s_mem s) (v_space v); Ok (mkState m (upd (s_obj s) x None))
  end.
Definition exec (ops : list Op) : res State := foldM step state0 ops.

(** LiftedSEVector.h:56-60: raw pointers; sizes are read from factor 0. *)
Record Vec := mkVec { w_r : nat; w_d : nat; w_n : nat; w_space : nat }.
(** LiftedSEVector.cpp:16-21 *)
Definition w_new (m : Mem) (r d n : nat) : Mem * Vec := let '(a, m) := alloc m (space_len r d n) in (m, mkVec r d n a).
(** LiftedSEVector.cpp:23-29: destructor *)
Definition w_delete (m : Mem) (w : Vec) : res Mem := release m (w_space w).
(** The copy constructor generated by the compiler copies the pointers. *)
Definition w_copy (w : Vec) : Vec := w.
(** LiftedSEVector.cpp:31-39 [getData]; [GetElement(0)] needs an element. *)
Definition w_getData (m : Mem) (w : Vec) : res (Mx S) :=
  require (1 <=? w_n w) (map_read m (w_space w) (w_r w) (w_n w * (w_d w + 1)) 0 (w_r w) (w_n w * (w_d w + 1))).
(** LiftedSEVector.cpp:41-54 [setData] *)
Definition w_setData (m : Mem) (w : Vec) (Y : Mx S) : res Mem :=
  require (1 <=? w_n w) (
  check (mrows Y =? w_r w) (check (mcols Y =? (w_d w + 1) * w_n w) (
  copy_in m (w_space w) Y (w_r w * (w_d w + 1) * w_n w)))).
End Variable_.
Arguments Block : clear implicits.
Arguments Mem : clear implicits.
Arguments Op : clear implicits.
