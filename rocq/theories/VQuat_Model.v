(** The quaternion class of src/math/vector-quaternion.cpp (real part first).  The file is in the sources but in no list of the
    build: the entities use Eigen's quaternions (Geom_Model).  It is modelled as it is written.

    Numbers are reals; a division by zero (an infinity or a NaN in the code) is the outcome [None]. *)
From Coq Require Import Reals.
From Verif Require Import Geom_Model.
Local Open Scope R_scope.

(** The four coefficients vector(0) .. vector(3); vector(0) is the real part for every method but fromVector. *)
Record vquat := VQ { c0 : R; c1 : R; c2 : R; c3 : R }.

(** 0.5 / sqrt(a); None when [a] is not positive: the root is zero or is not a number *)
Definition half_over_root (a : R) : option R := if Rlt_dec 0 a then Some (/ 2 / sqrt a) else None.

(** vector-quaternion.cpp:20-67 fromMatrix.  The three last branches take the root of the same number. *)
Definition fromMatrix (m : mat3) : option vquat :=
  let d0 := m00 m in let d1 := m11 m in let d2 := m22 m in
  let rr := 1 + d0 + d1 + d2 in
  if Rlt_dec 0 rr then
    let s := / 2 / sqrt rr in
    Some (VQ (/ 4 / s) ((m21 m - m12 m) * s) ((m02 m - m20 m) * s) ((m10 m - m01 m) * s))
  else
    match half_over_root (1 + d0 - d1 - d2) with
    | None => None
    | Some s =>
        if Rlt_dec d1 d0 then
          if Rlt_dec d2 d0 then
            Some (VQ ((m12 m + m21 m) * s) (/ 2 * s) ((m01 m + m10 m) * s) ((m02 m + m20 m) * s))
          else
            if Rlt_dec d2 d1 then Some (VQ ((m02 m + m20 m) * s) ((m01 m + m10 m) * s) (/ 2 * s) ((m12 m + m21 m) * s))
            else Some (VQ ((m01 m + m10 m) * s) ((m02 m + m20 m) * s) ((m12 m + m21 m) * s) (/ 2 * s))
        else
          if Rlt_dec d2 d1 then Some (VQ ((m02 m + m20 m) * s) ((m01 m + m10 m) * s) (/ 2 * s) ((m12 m + m21 m) * s))
          else Some (VQ ((m01 m + m10 m) * s) ((m02 m + m20 m) * s) ((m12 m + m21 m) * s) (/ 2 * s))
    end.

(** vector-quaternion.cpp:69-82 fromVector *)
Definition fromVector (u : vec3) : option vquat :=
  let theta := sqrt (vx u * vx u + vy u * vy u + vz u * vz u) in
  let si := sin theta in
  if Req_EM_T si 0 then None else Some (VQ (vx u / si) (vy u / si) (vz u / si) (cos theta)).

(** vector-quaternion.cpp:84-119 toMatrix *)
Definition toMatrix (q : vquat) : mat3 :=
  let x := c1 q in let y := c2 q in let z := c3 q in let r := c0 q in
  M3 (r * r + x * x - y * y - z * z) (2 * (x * y - r * z)) (2 * (z * x + r * y))
     (2 * (x * y + r * z)) (r * r - x * x + y * y - z * z) (2 * (y * z - r * x))
     (2 * (z * x - r * y)) (2 * (y * z + r * x)) (r * r - x * x - y * y + z * z).

(** vector-quaternion.cpp:121-127 conjugate *)
Definition conjugate (q : vquat) : vquat := VQ (c0 q) (- c1 q) (- c2 q) (- c3 q).

(** vector-quaternion.cpp:129-146 multiply *)
Definition multiply (p q : vquat) : vquat :=
  VQ (c0 p * c0 q - c1 p * c1 q - c2 p * c2 q - c3 p * c3 q)
     (c0 p * c1 q + c1 p * c0 q + c2 p * c3 q - c3 p * c2 q)
     (c0 p * c2 q + c2 p * c0 q + c3 p * c1 q - c1 p * c3 q)
     (c0 p * c3 q + c3 p * c0 q + c1 p * c2 q - c2 p * c1 q).
