(** FeatureVector3 (src/feature/feature-vector3.cpp), FeatureLineDistance
    (src/feature/feature-line-distance.cpp) and VisualPointProjecter
    (src/feature/visual-point-projecter.cpp).

    Scalars are the reals; poses, jacobians and the external Eigen operations
    are those of Geom_Model and OpPoint_Model.  A division is that of the
    reals, so statements about it suppose a denominator that is not zero. *)
From Coq Require Import String List Arith Lia ZArith Bool Reals Lra.
From Verif Require Import Base Geom_Model OpPoint_Model Point6d_Model.
Import ListNotations.
Local Open Scope R_scope.

(** external: a 3x3 matrix times a vector, or the difference of a 3-vector and
    a vector, needs exactly three coefficients. *)
Definition as3 (v : list R) : outcome vec3 :=
  match v with [x; y; z] => Ok (V3 x y z) | _ => UB end.

(** ** FeatureVector3 *)
(** feature-vector3.cpp:59-63 getDimension. *)
Definition vec_dimension : nat := 3.

(** feature-vector3.cpp:76-85 (and feature-line-distance.cpp:108-117): the
    matrix Skew. *)
Definition vec_skew (v : vec3) : mat3 :=
  M3 0 (- vz v) (vy v) (vz v) 0 (- vx v) (- vy v) (vx v) 0.

(** feature-vector3.cpp:66-101 computeJacobian.  The loop on k subtracts the
    three products from 0. *)
Definition vec_jacobian (M : hom) (vect : list R) (Jq : jac) : outcome (list (list R)) :=
  let* v := as3 vect in
  let RSk := mmul (lin M) (vec_skew v) in
  Ok [ map (fun c : vec3 * vec3 => 0 - m00 RSk * vx (snd c) - m01 RSk * vy (snd c) - m02 RSk * vz (snd c)) Jq;
       map (fun c : vec3 * vec3 => 0 - m10 RSk * vx (snd c) - m11 RSk * vy (snd c) - m12 RSk * vz (snd c)) Jq;
       map (fun c : vec3 * vec3 => 0 - m20 RSk * vx (snd c) - m21 RSk * vy (snd c) - m22 RSk * vz (snd c)) Jq ].

(** feature-vector3.cpp:106-127 computeError. *)
Definition vec_error (M : hom) (vect vectdes : list R) : outcome (list R) :=
  let* v := as3 vect in
  let* vd := as3 vectdes in
  Ok (vlist (vsub (mapp (lin M) v) vd)).

(** ** FeatureLineDistance *)
(** feature-line-distance.cpp:60-64 getDimension. *)
Definition line_dimension : nat := 1.

(** A line: a point and a direction. *)
Definition line := (vec3 * vec3)%type.

(** feature-line-distance.cpp:67-90 computeLineCoordinates. *)
Definition line_coords (pos : hom) (vect : list R) : outcome line :=
  let* v := as3 vect in
  Ok (trn pos, mapp (lin pos) v).

(** feature-line-distance.cpp:143-149, 254-260: six coefficients of the
    reference are read; further ones are ignored. *)
Definition line_ref (posRef : list R) : outcome line :=
  let* p := get3 posRef 0 in
  let* d := get3 posRef 3 in
  Ok (p, d).

(** feature-line-distance.cpp:156-158, 263-265: K. *)
Definition line_K (l r : line) : R :=
  let a0 := vx (snd l) in let b0 := vy (snd l) in let c0 := vz (snd l) in
  let a1 := vx (snd r) in let b1 := vy (snd r) in let c1 := vz (snd r) in
  c0 * c0 * a1 * a1 - 2 * c0 * a1 * a0 * c1 - 2 * c0 * b1 * b0 * c1 + c0 * c0 * b1 *
  b1 - 2 * b0 * a1 * a0 * b1 + b0 * b0 * a1 * a1 + b0 * b0 * c1 * c1 + a0 * a0 * b1 *
  b1 + a0 * a0 * c1 * c1.

(** feature-line-distance.cpp:266-270: the numerator of the error. *)
Definition line_N (l r : line) : R :=
  let x0 := vx (fst l) in let y0 := vy (fst l) in let z0 := vz (fst l) in
  let a0 := vx (snd l) in let b0 := vy (snd l) in let c0 := vz (snd l) in
  let x1 := vx (fst r) in let y1 := vy (fst r) in let z1 := vz (fst r) in
  let a1 := vx (snd r) in let b1 := vy (snd r) in let c1 := vz (snd r) in
  - b0 * c1 * x0 + b0 * c1 * x1 + c0 * b1 * x0 - c0 * b1 * x1 + a0 * c1 * y0 - a0 * c1
  * y1 - c0 * a1 * y0 + c0 * a1 * y1 - a0 * b1 * z0 + a0 * b1 * z1 + b0 * a1 * z0 - b0
  * a1 * z1.

(** feature-line-distance.cpp:164-219: diffa0 and diffb0. *)
Definition line_diffa0 (l r : line) : R :=
  let x0 := vx (fst l) in let y0 := vy (fst l) in let z0 := vz (fst l) in
  let a0 := vx (snd l) in let b0 := vy (snd l) in let c0 := vz (snd l) in
  let x1 := vx (fst r) in let y1 := vy (fst r) in let z1 := vz (fst r) in
  let a1 := vx (snd r) in let b1 := vy (snd r) in let c1 := vz (snd r) in
  let a1_3 := a1 * a1 * a1 in let b1_3 := b1 * b1 * b1 in let c1_3 := c1 * c1 * c1 in
  2 * b0 * c1 * x0 * a0 * b1 * b1 + 2 * c0 * b1 * b1 * x0 * b0 * a1 + 2 * c0 * c0 * b1
  * x0 * c1 * a1 + 2 * c1 * c1 * y0 * c0 * a1 * a0 - 2 * b0 * c1 * c1 * x0 * c0 * a1 -
  2 * b0 * b0 * c1 * x0 * b1 * a1 - 2 * c1 * c1 * y0 * c0 * b1 * b0 + 2 * b0 * b0 * c1
  * x1 * b1 * a1 + 2 * b0 * c1 * c1 * x1 * c0 * a1 - 2 * b0 * c1 * x1 * a0 * b1 * b1 -
  c1 * y0 * c0 * c0 * a1 * a1 + c1 * y0 * c0 * c0 * b1 * b1 + c1 * y0 * b0 * b0 * a1 *
  a1 - c1 * y0 * a0 * a0 * b1 * b1 + c1 * y1 * c0 * c0 * a1 * a1 - c1 * y1 * c0 * c0 *
  b1 * b1 - c1 * y1 * b0 * b0 * a1 * a1 + c1 * y1 * a0 * a0 * b1 * b1 - b1 * z0 * c0 *
  c0 * a1 * a1 + b1 * z0 * b0 * b0 * a1 * a1 - b1 * z0 * b0 * b0 * c1 * c1 + b1 * z0 *
  a0 * a0 * c1 * c1 + b1 * z1 * c0 * c0 * a1 * a1 - b1 * z1 * b0 * b0 * a1 * a1 + b1 *
  z1 * b0 * b0 * c1 * c1 - b1 * z1 * a0 * a0 * c1 * c1 + 2 * b0 * c1_3 * x0 * a0 - 2 *
  b0 * c1_3 * x1 * a0 - 2 * c0 * b1_3 * x0 * a0 + 2 * c0 * b1_3 * x1 * a0 + c1_3 * y0
  * b0 * b0 - c1_3 * y0 * a0 * a0 - c1_3 * y1 * b0 * b0 + c1_3 * y1 * a0 * a0 - b1_3 *
  z0 * c0 * c0 + b1_3 * z0 * a0 * a0 + b1_3 * z1 * c0 * c0 - b1_3 * z1 * a0 * a0 - 2 *
  c1 * c1 * y1 * c0 * a1 * a0 + 2 * c1 * c1 * y1 * c0 * b1 * b0 + 2 * b1 * b1 * z0 *
  c0 * b0 * c1 - 2 * b1 * b1 * z0 * b0 * a1 * a0 - 2 * b1 * b1 * z1 * c0 * b0 * c1 + 2
  * b1 * b1 * z1 * b0 * a1 * a0 - 2 * c0 * b1 * x0 * a0 * c1 * c1 - 2 * c0 * b1 * b1 *
  x1 * b0 * a1 - 2 * c0 * c0 * b1 * x1 * c1 * a1 + 2 * c0 * b1 * x1 * a0 * c1 * c1 + 2
  * c0 * a1 * y0 * a0 * b1 * b1 - 2 * c0 * a1 * a1 * y0 * b1 * b0 - 2 * c0 * a1 * y1 *
  a0 * b1 * b1 + 2 * c0 * a1 * a1 * y1 * b1 * b0 + 2 * b0 * a1 * a1 * z0 * c1 * c0 - 2
  * b0 * a1 * z0 * a0 * c1 * c1 - 2 * b0 * a1 * a1 * z1 * c1 * c0 + 2 * b0 * a1 * z1 *
  a0 * c1 * c1.
Definition line_diffb0 (l r : line) : R :=
  let x0 := vx (fst l) in let y0 := vy (fst l) in let z0 := vz (fst l) in
  let a0 := vx (snd l) in let b0 := vy (snd l) in let c0 := vz (snd l) in
  let x1 := vx (fst r) in let y1 := vy (fst r) in let z1 := vz (fst r) in
  let a1 := vx (snd r) in let b1 := vy (snd r) in let c1 := vz (snd r) in
  let a1_3 := a1 * a1 * a1 in let b1_3 := b1 * b1 * b1 in let c1_3 := c1 * c1 * c1 in
  -2 * c1 * c1 * x0 * c0 * b1 * b0 + 2 * c1 * c1 * x0 * c0 * a1 * a0 - c1 * x0 * c0 *
  c0 * a1 * a1 + c1 * x0 * c0 * c0 * b1 * b1 + c1 * x0 * b0 * b0 * a1 * a1 - c1 * x0 *
  a0 * a0 * b1 * b1 + c1 * x1 * c0 * c0 * a1 * a1 - c1 * x1 * c0 * c0 * b1 * b1 - c1 *
  x1 * b0 * b0 * a1 * a1 + c1 * x1 * a0 * a0 * b1 * b1 + a1 * z0 * c0 * c0 * b1 * b1 -
  a1 * z0 * b0 * b0 * c1 * c1 - a1 * z0 * a0 * a0 * b1 * b1 + a1 * z0 * a0 * a0 * c1 *
  c1 - a1 * z1 * c0 * c0 * b1 * b1 + a1 * z1 * b0 * b0 * c1 * c1 + a1 * z1 * a0 * a0 *
  b1 * b1 - a1 * z1 * a0 * a0 * c1 * c1 - 2 * a0 * c1_3 * y0 * b0 + 2 * a0 * c1_3 * y1
  * b0 + c1_3 * x0 * b0 * b0 - c1_3 * x0 * a0 * a0 - c1_3 * x1 * b0 * b0 + c1_3 * x1 *
  a0 * a0 + a1_3 * z0 * c0 * c0 - 2 * c1 * c1 * x1 * c0 * a1 * a0 + 2 * c1 * c1 * x1 *
  c0 * b1 * b0 - 2 * a1 * a1 * z0 * c0 * a0 * c1 + 2 * a1 * a1 * z0 * b0 * a0 * b1 -
  a1_3 * z0 * b0 * b0 - a1_3 * z1 * c0 * c0 + a1_3 * z1 * b0 * b0 + 2 * a1 * a1 * z1 *
  c0 * a0 * c1 - 2 * a1 * a1 * z1 * b0 * a0 * b1 + 2 * c0 * b1 * b1 * x0 * a1 * a0 - 2
  * c0 * b1 * x0 * b0 * a1 * a1 - 2 * c0 * b1 * b1 * x1 * a1 * a0 + 2 * c0 * b1 * x1 *
  b0 * a1 * a1 + 2 * a0 * a0 * c1 * y0 * a1 * b1 - 2 * a0 * c1 * y0 * b0 * a1 * a1 + 2
  * a0 * c1 * c1 * y0 * c0 * b1 - 2 * a0 * a0 * c1 * y1 * a1 * b1 + 2 * a0 * c1 * y1 *
  b0 * a1 * a1 - 2 * a0 * c1 * c1 * y1 * c0 * b1 - 2 * c0 * a1 * a1 * y0 * a0 * b1 + 2
  * c0 * a1_3 * y0 * b0 - 2 * c0 * a1_3 * y1 * b0 + 2 * c0 * a1 * y0 * b0 * c1 * c1 -
  2 * c0 * c0 * a1 * y0 * c1 * b1 + 2 * c0 * a1 * a1 * y1 * a0 * b1 - 2 * c0 * a1 * y1
  * b0 * c1 * c1 + 2 * c0 * c0 * a1 * y1 * c1 * b1 + 2 * a0 * b1 * z0 * b0 * c1 * c1 -
  2 * a0 * b1 * b1 * z0 * c1 * c0 - 2 * a0 * b1 * z1 * b0 * c1 * c1 + 2 * a0 * b1 * b1
  * z1 * c1 * c0.

(** feature-line-distance.cpp:160-162, 221-228: the row diffh, in two halves. *)
Definition line_diffh (l r : line) : vec3 * vec3 :=
  let a0 := vx (snd l) in let b0 := vy (snd l) in let c0 := vz (snd l) in
  let a1 := vx (snd r) in let b1 := vy (snd r) in let c1 := vz (snd r) in
  let K := line_K l r in
  let K2 := K * K in
  (V3 ((- b0 * c1 + c0 * b1) / K) ((a0 * c1 - c0 * a1) / K) ((- a0 * b1 + b0 * a1) / K),
   V3 (line_diffa0 l r / K2) (line_diffb0 l r / K2) 0).

(** feature-line-distance.cpp:99-132: a column of Jline. *)
Definition line_Jcol (M : hom) (v : vec3) (c : vec3 * vec3) : vec3 * vec3 :=
  (mapp (lin M) (fst c), mapp (mopp (mmul (lin M) (vec_skew v))) (snd c)).

(** feature-line-distance.cpp:95-237 computeJacobian: one row. *)
Definition line_jacobian (M : hom) (vect posRef : list R) (Jq : jac) : outcome (list R) :=
  let* v := as3 vect in
  let* l := line_coords M vect in
  let* r := line_ref posRef in
  let d := line_diffh l r in
  Ok (map (fun c => let j := line_Jcol M v c in vdot (fst d) (fst j) + vdot (snd d) (snd j)) Jq).

(** feature-line-distance.cpp:242-277 computeError. *)
Definition line_error (M : hom) (vect posRef : list R) : outcome (list R) :=
  let* l := line_coords M vect in
  let* r := line_ref posRef in
  Ok [line_N l r / line_K l r].

(** ** VisualPointProjecter *)
(** visual-point-projecter.cpp:48-57 point3DgazeSOUT_function: the 4x4 matrix
    of the inverse transformation times the point, which must therefore have
    four coefficients. *)
Definition proj_gaze (M : hom) (p3 : list R) : outcome (list R) :=
  match p3 with
  | [x; y; z; w] =>
      let Mi := hinv M in
      let q := vadd (mapp (lin Mi) (V3 x y z)) (vscal w (trn Mi)) in
      Ok [vx q; vy q; vz q; w]
  | _ => UB
  end.

(** An assert: reached with a false condition it stops the program, unless the
    code is compiled with NDEBUG. *)
Definition assert_ {A} (ndebug ok : bool) (k : outcome A) : outcome A :=
  if ndebug || ok then k else Throw "assert".

(** visual-point-projecter.cpp:74-79 depthSOUT_function. *)
Definition proj_depth (ndebug : bool) (p3g : list R) : outcome R :=
  assert_ ndebug (length p3g =? 3)%nat (vget p3g 2).

(** visual-point-projecter.cpp:59-72 point2DSOUT_function. *)
Definition proj_point2D (ndebug : bool) (M : hom) (p3 : list R) : outcome (list R) :=
  let* p3g := proj_gaze M p3 in
  let* z := proj_depth ndebug p3g in
  assert_ ndebug (if Rlt_dec 0 z then true else false)
    (let* x := vget p3g 0 in
     let* y := vget p3g 1 in
     Ok [x / z; y / z]).
