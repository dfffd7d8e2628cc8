(** Reading and writing files.
    Source: src/DPGO_utils.cpp:113-257 ([read_g2o_file]) and src/PGOLogger.cpp.
    A file is its text; lines and fields are split as the C++ streams do.  Text
    forms of floating-point numbers, and the number scanners of [operator>>], are
    parameters.  Eigen's quaternion conversions are written out (Eigen 3.3,
    Geometry/Quaternion.h).  Console output is left out. *)
From Coq Require Import List NArith ZArith Bool Ascii String Decimal DecimalString.
From Verif Require Import Base SMap Num ModelTypes.
Import ListNotations.
Local Open Scope string_scope.
Local Open Scope res_scope.
Local Open Scope num_scope.

(** * Text *)
Definition nl : ascii := ascii_of_nat 10.
Definition NL : string := String nl EmptyString.
(** [std::isspace] in the default locale *)
Definition is_space (c : ascii) : bool :=
  let n := nat_of_ascii c in (n =? 32)%nat || ((9 <=? n)%nat && (n <=? 13)%nat).
Fixpoint skip_space (s : string) : string :=
  match s with String c s' => if is_space c then skip_space s' else s | EmptyString => s end.

(** The lines repeated [std::getline(infile, line)] delivers. *)
Fixpoint lines (s : string) : list string :=
  match s with
  | EmptyString => []
  | String c s' =>
      if Ascii.eqb c nl then EmptyString :: lines s'
      else match lines s' with [] => [String c EmptyString] | l :: ls => String c l :: ls end
  end.

(** Text before the first [c], and what follows it if it is there. *)
Fixpoint cut_at (c : ascii) (s : string) : string * option string :=
  match s with
  | EmptyString => (EmptyString, None)
  | String a s' => if Ascii.eqb a c then (EmptyString, Some s')
                   else let '(p, r) := cut_at c s' in (String a p, r)
  end.

(** [std::getline(ss, token, ',')]: [fst] is what is left of the stream, [None]
    once its end was met; from then on the token is left as it is. *)
Definition next_field (st : option string * string) : option string * string :=
  match fst st with
  | None => st
  | Some s => let '(p, r) := cut_at "," s in (r, p)
  end.

(** [operator<<] for an unsigned integer *)
Definition show_N (n : N) : string := NilZero.string_of_uint (N.to_uint n).
Definition show_bool (b : bool) : string := if b then "1" else "0".

(** [std::stoi]: leading space, a sign, digits; the rest is ignored.  It throws
    without digits and outside the range of [int]. *)
Definition digit_of (c : ascii) : option N :=
  let n := N_of_ascii c in if ((48 <=? n) && (n <=? 57))%N then Some (n - 48)%N else None.
Fixpoint read_digits (s : string) (acc : N) : N :=
  match s with
  | EmptyString => acc
  | String c s' => match digit_of c with Some k => read_digits s' (10 * acc + k)%N | None => acc end
  end.
Definition read_nat (s : string) : option N :=
  match s with String c _ => match digit_of c with Some _ => Some (read_digits s 0) | None => None end | EmptyString => None end.
Definition int_ok (z : Z) : bool := ((- 2147483648 <=? z) && (z <=? 2147483647))%Z.
Definition stoi (s : string) : res Z :=
  let o := match skip_space s with
           | String "-" s' => option_map (fun n => (- Z.of_N n)%Z) (read_nat s')
           | String "+" s' => option_map Z.of_N (read_nat s')
           | s' => option_map Z.of_N (read_nat s')
           end in
  match o with Some z => if int_ok z then Ok z else Abort | None => Abort end.
(** [int] to [uint32_t] *)
Definition to_u32 (z : Z) : N := Z.to_N (z mod 4294967296).

(** * Files *)
Definition FS : Type := string -> option string.
Definition put (fs : FS) (name content : string) : FS := fun n => if (n =? name)%string then Some content else fs n.

Section IO.
Context {S : Type} `{Num S}.

(** * Quaternions *)
Record Quat := mkQuat { qx : S; qy : S; qz : S; qw : S }.
Definition half : S := n1 / nofZ 2.

(** Eigen [Quaternion(Matrix3d)]; [q_big i] is the case where diagonal entry [i]
    decides. *)
Definition q_trace (M : Mx S) : Quat :=
  let t := nsqrt (M 0%nat 0%nat + M 1%nat 1%nat + M 2%nat 2%nat + n1) in
  let u := half / t in
  mkQuat ((M 2%nat 1%nat - M 1%nat 2%nat) * u) ((M 0%nat 2%nat - M 2%nat 0%nat) * u) ((M 1%nat 0%nat - M 0%nat 1%nat) * u) (half * t).
Definition q_big (M : Mx S) (i j k : nat) : S * S * S * S :=
  let t := nsqrt (M i i - M j j - M k k + n1) in
  let u := half / t in
  (half * t, (M j i + M i j) * u, (M k i + M i k) * u, (M k j - M j k) * u).
Definition quat_of (M : Mx S) : Quat :=
  if nltb n0 (M 0%nat 0%nat + M 1%nat 1%nat + M 2%nat 2%nat) then q_trace M
  else
    let i := if nltb (M 0%nat 0%nat) (M 1%nat 1%nat) then 1%nat else 0%nat in
    let i := if nltb (M i i) (M 2%nat 2%nat) then 2%nat else i in
    match i with
    | O => let '(x, y, z, w) := q_big M 0 1 2 in mkQuat x y z w
    | 1%nat => let '(y, z, x, w) := q_big M 1 2 0 in mkQuat x y z w
    | _ => let '(z, x, y, w) := q_big M 2 0 1 in mkQuat x y z w
    end.

(** Eigen [Quaternion::normalize] *)
Definition q_normalize (q : Quat) : Quat :=
  let z := qx q * qx q + qy q * qy q + qz q * qz q + qw q * qw q in
  if nltb n0 z then let s := nsqrt z in mkQuat (qx q / s) (qy q / s) (qz q / s) (qw q / s) else q.

(** Eigen [Quaternion::toRotationMatrix] *)
Definition q_rot (q : Quat) : Mx S :=
  let two := nofZ 2 in
  let tx := two * qx q in let ty := two * qy q in let tz := two * qz q in
  let twx := tx * qw q in let twy := ty * qw q in let twz := tz * qw q in
  let txx := tx * qx q in let txy := ty * qx q in let txz := tz * qx q in
  let tyy := ty * qy q in let tyz := tz * qy q in let tzz := tz * qz q in
  mlit 3 3 [[n1 - (tyy + tzz); txy - twz; txz + twy];
            [txy + twz; n1 - (txx + tzz); tyz - twx];
            [txz - twy; tyz + twx; n1 - (txx + tyy)]].

(** * Logger *)
(** [operator<<] for a double, and [std::stod] (it may throw). *)
Record Fmt := mkFmt { f_show : S -> string; f_stod : string -> res S }.
Variable F : Fmt.
(** The directory given to the logger, and whether [open] for writing succeeds. *)
Variable dir : string.
Variable writable : string -> bool.

Definition meas_header : string :=
  "robot_src,pose_src,robot_dst,pose_dst,qx,qy,qz,qw,tx,ty,tz,kappa,tau,is_known_inlier,weight".
Definition traj_header : string := "pose_index,qx,qy,qz,qw,tx,ty,tz".
Definition comma (l : list string) : string := String.concat "," l.

(** PGOLogger.cpp:31-50; conversion to [Matrix3d] needs three rows and columns,
    and the translation three coefficients. *)
Definition meas_row (m : Meas S) : res string :=
  require ((mrows (mR m) =? 3)%nat && (mcols (mR m) =? 3)%nat && (mrows (mt m) =? 3)%nat) (
  let q := quat_of (mR m) in
  Ok (comma [show_N (mr1 m); show_N (mp1 m); show_N (mr2 m); show_N (mp2 m);
             f_show F (qx q); f_show F (qy q); f_show F (qz q); f_show F (qw q);
             f_show F (mt m 0%nat 0%nat); f_show F (mt m 1%nat 0%nat); f_show F (mt m 2%nat 0%nat);
             f_show F (mkappa m); f_show F (mtau m); show_bool (mfixed m); f_show F (mweight m)])).
(** Text of a header and rows, each closed by a newline. *)
Definition text (ls : list string) : string := fold_right (fun l s => l ++ NL ++ s) EmptyString ls.

Fixpoint mapM {A B} (f : A -> res B) (l : list A) : res (list B) :=
  match l with [] => Ok [] | a :: l => do b <- f a; do bs <- mapM f l; Ok (b :: bs) end.

(** PGOLogger.cpp:18-53 [logMeasurements] *)
Definition logMeasurements (fs : FS) (ms : list (Meas S)) (filename : string) : res FS :=
  match ms with
  | [] => Ok fs
  | m :: _ =>
      let name := dir ++ filename in
      if negb (writable name) then Ok fs
      else if (mrows (mR m) =? 2)%nat then Ok (put fs name EmptyString)
      else do rows <- mapM meas_row ms; Ok (put fs name (text (meas_header :: rows)))
  end.

(** PGOLogger.cpp:66-78 *)
Definition traj_row (T : Mx S) (i : nat) : string :=
  let q := quat_of (mblock T 0 (i * 4) 3 3) in
  let t := mblock T 0 (i * 4 + 3) 3 1 in
  comma [show_N (N.of_nat i); f_show F (qx q); f_show F (qy q); f_show F (qz q); f_show F (qw q);
         f_show F (t 0%nat 0%nat); f_show F (t 1%nat 0%nat); f_show F (t 2%nat 0%nat)].
(** PGOLogger.cpp:55-81 [logTrajectory]; a dimension other than 2 and 3 cannot be
    put into a [Matrix3d]. *)
Definition logTrajectory (fs : FS) (d : nat) (n : N) (T : Mx S) (filename : string) : res FS :=
  if (d =? 2)%nat then Ok fs else
  check (mrows T =? d)%nat (
  check (N.of_nat (mcols T) =? u32 (N.of_nat (d + 1) * n))%N (
  let name := dir ++ filename in
  if negb (writable name) then Ok fs else
  require ((d =? 3)%nat || (n =? 0)%N) (
  require ((d + 1) * N.to_nat n <=? mcols T)%nat (
  Ok (put fs name (text (traj_header :: map (traj_row T) (seq 0 (N.to_nat n))))))))).

(** Reading one field as a number. *)
Definition field_int (st : option string * string) : res (Z * (option string * string)) :=
  let st := next_field st in do z <- stoi (snd st); Ok (z, st).
Definition field_dbl (st : option string * string) : res (S * (option string * string)) :=
  let st := next_field st in do x <- f_stod F (snd st); Ok (x, st).

(** PGOLogger.cpp:105-139: one line; [tok] is the token left by the line before. *)
Definition traj_line (tok line : string) : res (N * Mx S * string) :=
  do '(id, st) <- field_int (Some line, tok);
  do '(x, st) <- field_dbl st; do '(y, st) <- field_dbl st; do '(z, st) <- field_dbl st; do '(w, st) <- field_dbl st;
  let q := q_normalize (mkQuat x y z w) in
  do '(tx, st) <- field_dbl st; do '(ty, st) <- field_dbl st; do '(tz, st) <- field_dbl st;
  Ok (to_u32 id, msetblock (msetblock (mzero 3 4) 0 0 (q_rot q)) 0 3 (mlit 3 1 [[tx]; [ty]; [tz]]), snd st).
Fixpoint traj_lines (tok : string) (ls : list string) (tm : list (N * Mx S)) : res (list (N * Mx S)) :=
  match ls with
  | [] => Ok tm
  | l :: ls =>
      do '(id, T, tok) <- traj_line tok l;
      traj_lines tok ls (if existsb (fun kv => (fst kv =? id)%N) tm then tm else tm ++ [(id, T)])
  end.
Fixpoint tm_get (tm : list (N * Mx S)) (i : N) : res (Mx S) :=
  match tm with [] => Abort | (k, T) :: tm => if (k =? i)%N then Ok T else tm_get tm i end.

(** PGOLogger.cpp:83-146 [loadTrajectory]; [None] for an unreadable file.  A
    column count that wraps ([4 * num_poses], 32 bits) leaves blocks outside the
    matrix. *)
Definition loadTrajectory (fs : FS) (filename : string) : res (option (Mx S)) :=
  match fs (dir ++ filename) with
  | None => Ok None
  | Some content =>
      let rows := tl (lines content) in
      do tm <- traj_lines EmptyString rows [];
      let n := u32 (N.of_nat (List.length rows)) in
      let cols := N.to_nat (u32 (4 * n)) in
      do T <- foldM (fun T i => do Ti <- tm_get tm (N.of_nat i); require (4 * i + 4 <=? cols)%nat (Ok (msetblock T 0 (4 * i) Ti)))
                    (mzero 3 cols) (seq 0 (N.to_nat n));
      Ok (Some T)
  end.

(** PGOLogger.cpp:172-221: one line *)
Definition meas_line (load_weight : bool) (tok line : string) : res (Meas S * string) :=
  do '(r1, st) <- field_int (Some line, tok); do '(p1, st) <- field_int st;
  do '(r2, st) <- field_int st; do '(p2, st) <- field_int st;
  do '(x, st) <- field_dbl st; do '(y, st) <- field_dbl st; do '(z, st) <- field_dbl st; do '(w, st) <- field_dbl st;
  let q := q_normalize (mkQuat x y z w) in
  do '(tx, st) <- field_dbl st; do '(ty, st) <- field_dbl st; do '(tz, st) <- field_dbl st;
  do '(kappa, st) <- field_dbl st; do '(tau, st) <- field_dbl st;
  do '(fixed, st) <- field_int st; do '(weight, st) <- field_dbl st;
  Ok (mkMeas (to_u32 r1) (to_u32 r2) (to_u32 p1) (to_u32 p2) (q_rot q) (mlit 3 1 [[tx]; [ty]; [tz]]) kappa tau
             (negb (fixed =? 0)%Z) (if load_weight then weight else n1), snd st).
Fixpoint meas_lines (lw : bool) (tok : string) (ls : list string) : res (list (Meas S)) :=
  match ls with
  | [] => Ok []
  | l :: ls => do '(m, tok) <- meas_line lw tok l; do ms <- meas_lines lw tok ls; Ok (m :: ms)
  end.
(** PGOLogger.cpp:148-225 [loadMeasurements]: the name is used without the
    directory. *)
Definition loadMeasurements (fs : FS) (filename : string) (lw : bool) : res (list (Meas S)) :=
  match fs filename with
  | None => Ok []
  | Some content => meas_lines lw EmptyString (tl (lines content))
  end.

(** * g2o *)
(** Number scanners of [operator>>], at a character that is not space: does the
    stream stay usable, the value stored, the text left.  Cosine and sine. *)
Record G2oExt := mkG2o { g_scanU : string -> bool * N * string; g_scanD : string -> bool * S * string; g_cos : S -> S; g_sin : S -> S }.
Variable G : G2oExt.

(** [strstrm >> x] for a value of type [A]; [st] is [None] once the stream has
    failed, and then (or at the end of the line) [x] stays as it is. *)
Definition extract {A} (scan : string -> bool * A * string) (st : option string) (x : option A) : option string * option A :=
  match st with
  | None => (None, x)
  | Some s =>
      match skip_space s with
      | EmptyString => (None, x)
      | s' => let '(ok, a, rest) := scan s' in (if ok then Some rest else None, Some a)
      end
  end.
(** [strstrm >> token] for a string: characters up to the next space *)
Fixpoint cut_space (s : string) : string * string :=
  match s with
  | EmptyString => (EmptyString, EmptyString)
  | String c s' => if is_space c then (EmptyString, s) else let '(p, r) := cut_space s' in (String c p, r)
  end.
Definition scan_token (s : string) : bool * string * string := let '(p, r) := cut_space s in (true, p, r).

(** The variables of lines 129-132, declared outside the loop; [None] while
    uninitialised. *)
Definition Env : Type := string -> option S.
Definition env0 : Env := fun _ => None.
Definition env_set (e : Env) (x : string) (v : option S) : Env := fun y => if (y =? x)%string then v else e y.
Fixpoint extract_all (st : option string) (e : Env) (xs : list string) : option string * Env :=
  match xs with
  | [] => (st, e)
  | x :: xs => let '(st, v) := extract (g_scanD G) st (e x) in extract_all st (env_set e x v) xs
  end.
(** Reading a variable that was never set is undefined. *)
Definition rd {A} (o : option A) : res A := match o with Some a => Ok a | None => UB end.

(** Lines 157-158 and 196-199 *)
Definition vars2 : list string := ["dx"; "dy"; "dtheta"; "I11"; "I12"; "I13"; "I22"; "I23"; "I33"].
Definition vars3 : list string :=
  ["dx"; "dy"; "dz"; "dqx"; "dqy"; "dqz"; "dqw"; "I11"; "I12"; "I13"; "I14"; "I15"; "I16"; "I22"; "I23"; "I24"; "I25"; "I26";
   "I33"; "I34"; "I35"; "I36"; "I44"; "I45"; "I46"; "I55"; "I56"; "I66"].

(** Trace of the inverse (Eigen's closed forms) of the symmetric matrix with the
    given upper triangle. *)
Definition tr_inv2 (a b c : S) : S :=
  let invdet := n1 / (a * c - b * b) in c * invdet + a * invdet.
Definition tr_inv3 (a b c d e f : S) : S :=
  let c0 := d * f - e * e in let c1 := e * c - b * f in let c2 := b * e - d * c in
  let det := c0 * a + c1 * b + c2 * c in
  let invdet := n1 / det in
  c0 * invdet + (a * f - c * c) * invdet + (a * d - b * b) * invdet.

(** Lines 155-184 *)
Definition edge2 (i j : N) (e : Env) : res (Meas S) :=
  do dx <- rd (e "dx"); do dy <- rd (e "dy"); do th <- rd (e "dtheta");
  do I11 <- rd (e "I11"); do I12 <- rd (e "I12"); do I22 <- rd (e "I22"); do I33 <- rd (e "I33");
  Ok (mkMeas 0 0 i j (mlit 2 2 [[g_cos G th; - g_sin G th]; [g_sin G th; g_cos G th]]) (mlit 2 1 [[dx]; [dy]])
             I33 (nofZ 2 / tr_inv2 I11 I12 I22) (u64 (i + 1) =? j)%N n1).
(** Lines 201-238 *)
Definition edge3 (i j : N) (e : Env) : res (Meas S) :=
  do dx <- rd (e "dx"); do dy <- rd (e "dy"); do dz <- rd (e "dz");
  do x <- rd (e "dqx"); do y <- rd (e "dqy"); do z <- rd (e "dqz"); do w <- rd (e "dqw");
  do I11 <- rd (e "I11"); do I12 <- rd (e "I12"); do I13 <- rd (e "I13"); do I22 <- rd (e "I22"); do I23 <- rd (e "I23"); do I33 <- rd (e "I33");
  do I44 <- rd (e "I44"); do I45 <- rd (e "I45"); do I46 <- rd (e "I46"); do I55 <- rd (e "I55"); do I56 <- rd (e "I56"); do I66 <- rd (e "I66");
  Ok (mkMeas 0 0 i j (q_rot (mkQuat x y z w)) (mlit 3 1 [[dx]; [dy]; [dz]])
             (nofZ 3 / (nofZ 2 * tr_inv3 I44 I45 I46 I55 I56 I66)) (nofZ 3 / tr_inv3 I11 I12 I13 I22 I23 I33) (u64 (i + 1) =? j)%N n1).

(** [size_t] to [double] (to nearest, ties to even). *)
Definition to_double (n : N) : N :=
  if (n <? 9007199254740992)%N then n else
  let e := (N.log2 n - 52)%N in
  let q := N.shiftr n e in
  let r := (n - N.shiftl q e)%N in
  let h := N.shiftl 1 (e - 1) in
  let q := if (h <? r)%N || ((r =? h)%N && N.odd q) then (q + 1)%N else q in
  N.shiftl q e.
(** Line 246: [size_t max_pair = std::max<double>(p1, p2)]; a double of 2^64 or
    more does not fit. *)
Definition max_pair (p1 p2 : N) : res N :=
  let m := N.max (to_double p1) (to_double p2) in require (m <? two64)%N (Ok m).

(** State of the loop of lines 139-250. *)
Record G2o := mkG { g_token : string; g_i : option N; g_j : option N; g_env : Env; g_n : N; g_out : list (Meas S) }.
(** Lines 157-183 and 196-249: read the fields, build the measurement, update the
    count, append. *)
Definition g2o_edge (tok : string) (st : option string) (xs : list string) (mk : N -> N -> Env -> res (Meas S)) (s : G2o) : res G2o :=
  let '(st, i) := extract (g_scanU G) st (g_i s) in
  let '(st, j) := extract (g_scanU G) st (g_j s) in
  let '(_, e) := extract_all st (g_env s) xs in
  do vi <- rd i; do vj <- rd j; do m <- mk vi vj e;
  do mp <- max_pair vi vj;
  Ok (mkG tok i j e (if (g_n s <? mp)%N then mp else g_n s) (g_out s ++ [m])).
Definition g2o_line (s : G2o) (line : string) : res G2o :=
  let '(st, tok) := extract scan_token (Some line) (Some (g_token s)) in
  let tok := match tok with Some t => t | None => g_token s end in
  if (tok =? "EDGE_SE2")%string then g2o_edge tok st vars2 edge2 s
  else if (tok =? "EDGE_SE3:QUAT")%string then g2o_edge tok st vars3 edge3 s
  else if (tok =? "VERTEX_SE2")%string || (tok =? "VERTEX_SE3:QUAT")%string
  then Ok (mkG tok (g_i s) (g_j s) (g_env s) (g_n s) (g_out s))
  else Abort.

(** DPGO_utils.cpp:113-257 [read_g2o_file]: measurements and pose count; an
    unreadable file has no lines. *)
Definition read_g2o (fs : FS) (filename : string) : res (list (Meas S) * N) :=
  let ls := match fs filename with Some c => lines c | None => [] end in
  do s <- foldM g2o_line (mkG EmptyString None None env0 0 []) ls;
  Ok (g_out s, u64 (g_n s + 1)).
End IO.
Arguments Quat : clear implicits.
Arguments Fmt : clear implicits.
Arguments G2oExt : clear implicits.
Arguments G2o : clear implicits.
Arguments Env : clear implicits.
