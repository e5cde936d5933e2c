(** Matrix utilities of the Python package (src/dynamic_graph/sot/core/matrix_util.py).
    Numbers are reals.  A homogeneous matrix given as four rows is its first three rows (rotation
    block and position): the last row is never read, and is 0 0 0 1 in what is built. *)
From Coq Require Import String List Arith Lia ZArith Bool Reals Lra.
From Verif Require Import Base Geom_Model.
Import ListNotations.
Local Open Scope R_scope.

(** Value of an array: vector (one dimension) or rows (two dimensions, [nc] columns). *)
Inductive ndarray := Arr1 (v : list R) | Arr2 (nc : nat) (rows : list (list R)).

(** matrix_util.py:13-18 matrixToTuple: the rows, in order. *)
Definition matrixToTuple (rows : list (list R)) : list (list R) :=
  fold_left (fun res i => res ++ [i]) rows [].

(** numpy transpose of [nc] columns *)
Definition transpose (nc : nat) (rows : list (list R)) : outcome (list (list R)) :=
  ofor_range 0 nc (fun j res =>
    let* col := ofold (fun c r => let* x := vget r j in Ok (c ++ [x])) rows [] in
    Ok (res ++ [col])) [].

(** matrix_util.py:21-27 vectorToTuple *)
Definition vectorToTuple (m : ndarray) : outcome (list R) :=
  match m with
  | Arr1 v => Ok v
  | Arr2 nc rows =>
      if (length rows =? 1)%nat then vget rows 0
      else let* t := transpose nc rows in
           match t with
           | [] => Throw "IndexError: list index out of range"
           | c :: _ => Ok c
           end
  end.

(** matrix_util.py:110-122 rotate: the rotation block.  An unknown axis prints a message, and the
    return statement then reads a variable that was never set. *)
Definition rotate (axis : string) (ang : R) : outcome mat3 :=
  let ca := cos ang in
  let sa := sin ang in
  if String.eqb axis "x" then Ok (M3 1 0 0 0 ca (- sa) 0 sa ca)
  else if String.eqb axis "y" then Ok (M3 ca 0 sa 0 1 0 (- sa) 0 ca)
  else if String.eqb axis "z" then Ok (M3 ca (- sa) 0 sa ca 0 0 0 1)
  else Throw "UnboundLocalError: mat".

(** matrix_util.py:31-33 rpy2tr *)
Definition rpy2tr (r p y : R) : outcome hom :=
  let* z := rotate "z" y in
  let* yy := rotate "y" p in
  let* x := rotate "x" r in
  Ok (hmul (hmul (H z v0) (H yy v0)) (H x v0)).

(** matrix_util.py:37-41 distVector(M2, M1) *)
Definition distVector (m2 m1 : hom) : vec3 :=
  V3 (vx (trn m1) - vx (trn m2)) (vy (trn m1) - vy (trn m2)) (vz (trn m1) - vz (trn m2)).

(** matrix_util.py:75-89 tr2rpy: [m] is the rotation block of the argument. *)
Definition tr2rpy (m : mat3) : R * R * R :=
  let n := sqrt (m21 m * m21 m + m22 m * m22 m) in
  let p := atan2 (- m20 m) n in
  let '(r, y) :=
    if Rlt_dec (Rabs (p - PI / 2)) (1 / 1000) then (0, atan2 (m01 m) (m11 m))
    else if Rlt_dec (Rabs (p + PI / 2)) (1 / 1000) then (0, - atan2 (m01 m) (m11 m))
    else (atan2 (m10 m) (m00 m), atan2 (m21 m) (m22 m)) in
  (r, p, y).

(** matrix_util.py:92-97 matrixToRPY *)
Definition matrixToRPY (m : hom) : list R :=
  let '(r0, r1, r2) := tr2rpy (lin m) in
  [vx (trn m); vy (trn m); vz (trn m); r2; r1; r0].

(** matrix_util.py:100-106 RPYToMatrix: a vector with fewer than six numbers raises IndexError. *)
Definition RPYToMatrix (pr : list R) : outcome hom :=
  match pr with
  | p0 :: p1 :: p2 :: p3 :: p4 :: p5 :: _ =>
      let* m := rpy2tr p3 p4 p5 in
      Ok (H (lin m) (V3 p0 p1 p2))
  | _ => Throw "IndexError: list index out of range"
  end.

(** matrix_util.py:49-71 generateOrthonormalM: [v2] and [v3] are the two drawn vectors, each
    coefficient in [0, 1).  A division by a norm equal to zero fills a column with NaN: None. *)
Definition normalized (v : vec3) : option vec3 :=
  if Req_EM_T (vnorm v) 0 then None
  else Some (V3 (vx v / vnorm v) (vy v / vnorm v) (vz v / vnorm v)).

Definition generateOrthonormalM (v2 v3 v1 : vec3) : option mat3 :=
  match normalized v1 with
  | None => None
  | Some e1 =>
      let u2 := vsub v2 (vscal (vdot v2 e1) e1) in
      match normalized u2 with
      | None => None
      | Some e2 =>
          let u3 := vsub (vsub v3 (vscal (vdot v3 e1) e1)) (vscal (vdot v3 e2) e2) in
          match normalized u3 with
          | None => None
          | Some e3 =>
              Some (M3 (vx e1) (vx e2) (vx e3)
                       (vy e1) (vy e2) (vy e3)
                       (vz e1) (vz e2) (vz e3))
          end
      end
  end.

(** matrix_util.py:125-144 quaternionToMatrix: the list is qx, qy, qz, qw. *)
Definition quaternionToMatrix (q : list R) : outcome mat3 :=
  match q with
  | [qx; qy; qz; qw] =>
      Ok (M3 (1 - 2 * qy ^ 2 - 2 * qz ^ 2) (2 * qx * qy - 2 * qz * qw) (2 * qx * qz + 2 * qy * qw)
             (2 * qx * qy + 2 * qz * qw) (1 - 2 * qx ^ 2 - 2 * qz ^ 2) (2 * qy * qz - 2 * qx * qw)
             (2 * qx * qz - 2 * qy * qw) (2 * qy * qz + 2 * qx * qw) (1 - 2 * qx ^ 2 - 2 * qy ^ 2))
  | _ => Throw "ValueError: values to unpack"
  end.
