(** Rigid-body geometry used across sot-core: 3-vectors, 3x3 matrices,
    homogeneous transformations, twist matrices, rotation parametrisations and
    the SE3/SO3 conversion operators of src/matrix/operator.hh.

    Scalars are the reals of the standard library: rounding is not modelled.
    Eigen itself is not in the repository; the handful of Eigen members the
    code calls (AngleAxis::toRotationMatrix, Quaternion::toRotationMatrix,
    quaternion from a rotation matrix, angle-axis from a quaternion,
    eulerAngles, the affine inverse) are modelled below from Eigen 3.3's
    documented algorithm and are marked "external". *)
From Coq Require Import String List Arith Lia ZArith Bool Reals Lra.
From Verif Require Import Base.
Import ListNotations.
Local Open Scope R_scope.

(* ---------------------------------------------------------------- *)
(** ** Vectors and matrices
    [vec3] is Eigen::Vector3d (VectorRotation, VectorRollPitchYaw),
    [mat3] is MatrixRotation = Eigen::Matrix<double,3,3>
    (include/sot/core/matrix-geometry.hh:76-80).  [mat3] fields are
    row/column coefficients: [m12] is M(1,2). *)
Record vec3 := V3 { vx : R; vy : R; vz : R }.

Record mat3 := M3 {
  m00 : R; m01 : R; m02 : R;
  m10 : R; m11 : R; m12 : R;
  m20 : R; m21 : R; m22 : R }.

(** external: elementary Eigen algebra. *)
Definition v0 : vec3 := V3 0 0 0.
Definition vadd (a b : vec3) := V3 (vx a + vx b) (vy a + vy b) (vz a + vz b).
Definition vsub (a b : vec3) := V3 (vx a - vx b) (vy a - vy b) (vz a - vz b).
Definition vopp (a : vec3) := V3 (- vx a) (- vy a) (- vz a).
Definition vscal (k : R) (a : vec3) := V3 (k * vx a) (k * vy a) (k * vz a).
Definition vdot (a b : vec3) := vx a * vx b + vy a * vy b + vz a * vz b.
Definition cross (a b : vec3) :=
  V3 (vy a * vz b - vz a * vy b) (vz a * vx b - vx a * vz b)
     (vx a * vy b - vy a * vx b).
Definition vnorm (a : vec3) := sqrt (vdot a a).

Definition mid : mat3 := M3 1 0 0 0 1 0 0 0 1.
Definition mzero : mat3 := M3 0 0 0 0 0 0 0 0 0.
Definition mT (a : mat3) :=
  M3 (m00 a) (m10 a) (m20 a) (m01 a) (m11 a) (m21 a) (m02 a) (m12 a) (m22 a).
Definition madd (a b : mat3) :=
  M3 (m00 a + m00 b) (m01 a + m01 b) (m02 a + m02 b)
     (m10 a + m10 b) (m11 a + m11 b) (m12 a + m12 b)
     (m20 a + m20 b) (m21 a + m21 b) (m22 a + m22 b).
Definition mopp (a : mat3) :=
  M3 (- m00 a) (- m01 a) (- m02 a) (- m10 a) (- m11 a) (- m12 a)
     (- m20 a) (- m21 a) (- m22 a).
Definition mscal (k : R) (a : mat3) :=
  M3 (k * m00 a) (k * m01 a) (k * m02 a) (k * m10 a) (k * m11 a) (k * m12 a)
     (k * m20 a) (k * m21 a) (k * m22 a).
Definition mmul (a b : mat3) :=
  M3 (m00 a * m00 b + m01 a * m10 b + m02 a * m20 b)
     (m00 a * m01 b + m01 a * m11 b + m02 a * m21 b)
     (m00 a * m02 b + m01 a * m12 b + m02 a * m22 b)
     (m10 a * m00 b + m11 a * m10 b + m12 a * m20 b)
     (m10 a * m01 b + m11 a * m11 b + m12 a * m21 b)
     (m10 a * m02 b + m11 a * m12 b + m12 a * m22 b)
     (m20 a * m00 b + m21 a * m10 b + m22 a * m20 b)
     (m20 a * m01 b + m21 a * m11 b + m22 a * m21 b)
     (m20 a * m02 b + m21 a * m12 b + m22 a * m22 b).
Definition mapp (a : mat3) (v : vec3) :=
  V3 (m00 a * vx v + m01 a * vy v + m02 a * vz v)
     (m10 a * vx v + m11 a * vy v + m12 a * vz v)
     (m20 a * vx v + m21 a * vy v + m22 a * vz v).
Definition mdet (a : mat3) :=
  m00 a * (m11 a * m22 a - m12 a * m21 a)
  - m01 a * (m10 a * m22 a - m12 a * m20 a)
  + m02 a * (m10 a * m21 a - m11 a * m20 a).
Definition madj (a : mat3) :=
  M3 (m11 a * m22 a - m12 a * m21 a) (m02 a * m21 a - m01 a * m22 a)
     (m01 a * m12 a - m02 a * m11 a)
     (m12 a * m20 a - m10 a * m22 a) (m00 a * m22 a - m02 a * m20 a)
     (m02 a * m10 a - m00 a * m12 a)
     (m10 a * m21 a - m11 a * m20 a) (m01 a * m20 a - m00 a * m21 a)
     (m00 a * m11 a - m01 a * m10 a).
(** external: Eigen's 3x3 inverse, cofactors over the determinant. *)
Definition minv (a : mat3) := mscal (/ mdet a) (madj a).

(** Tx of matrix-geometry.hh:91-92 and operator.hh:425-426
    ([Tx << 0, -t(2), t(1), t(2), 0, -t(0), -t(1), t(0), 0], filled row by
    row). *)
Definition skew (t : vec3) :=
  M3 0 (- vz t) (vy t) (vz t) 0 (- vx t) (- vy t) (vx t) 0.

(* ---------------------------------------------------------------- *)
(** ** MatrixHomogeneous = Eigen::Transform<double,3,Affine>
    (matrix-geometry.hh:74-75).  Simplification: the last row is the constant
    (0,0,0,1), which Eigen's affine operations also assume; a user can break
    it only through the raw 4x4 access of setTransformation. *)
Record hom := H { lin : mat3; trn : vec3 }.

Definition hid := H mid v0.
(** external: product and affine inverse of transformations. *)
Definition hmul (a b : hom) :=
  H (mmul (lin a) (lin b)) (vadd (mapp (lin a) (trn b)) (trn a)).
Definition hinv (a : hom) :=
  let l := minv (lin a) in H l (vopp (mapp l (trn a))).
Definition happ (a : hom) (p : vec3) := vadd (mapp (lin a) p) (trn a).

(* ---------------------------------------------------------------- *)
(** ** MatrixTwist = 6x6, kept as four 3x3 blocks (matrix-geometry.hh:84). *)
Record twist := T6 { b00 : mat3; b01 : mat3; b10 : mat3; b11 : mat3 }.

Definition tid := T6 mid mzero mzero mid.
(** external: product of two 6x6 matrices by blocks, and of a 6x6 matrix by a
    6-vector (linear part, angular part). *)
Definition tmul (a b : twist) :=
  T6 (madd (mmul (b00 a) (b00 b)) (mmul (b01 a) (b10 b)))
     (madd (mmul (b00 a) (b01 b)) (mmul (b01 a) (b11 b)))
     (madd (mmul (b10 a) (b00 b)) (mmul (b11 a) (b10 b)))
     (madd (mmul (b10 a) (b01 b)) (mmul (b11 a) (b11 b))).
Definition tapp (a : twist) (n : vec3 * vec3) : vec3 * vec3 :=
  (vadd (mapp (b00 a) (fst n)) (mapp (b01 a) (snd n)),
   vadd (mapp (b10 a) (fst n)) (mapp (b11 a) (snd n))).

(** matrix-geometry.hh:88-101 buildFrom(MatrixHomogeneous, MatrixTwist). *)
Definition buildFrom (m : hom) : twist :=
  let r := lin m in
  let sk := mmul (skew (trn m)) r in
  T6 r sk mzero r.

(** src/matrix/operator.hh:421-436 HomoToTwist. *)
Definition HomoToTwist (m : hom) : twist :=
  let t := trn m in
  let r := lin m in
  let tx := M3 0 (- vz t) (vy t) (vz t) 0 (- vx t) (- vy t) (vx t) 0 in
  let sk := mmul tx r in
  T6 r sk mzero r.

(* ---------------------------------------------------------------- *)
(** ** Quaternions and angle-axis *)
Record quat := Q { qw : R; qx : R; qy : R; qz : R }.

(** external: Eigen::QuaternionBase::toRotationMatrix (no normalisation). *)
Definition quatToMat (q : quat) : mat3 :=
  let tx := 2 * qx q in let ty := 2 * qy q in let tz := 2 * qz q in
  let twx := tx * qw q in let twy := ty * qw q in let twz := tz * qw q in
  let txx := tx * qx q in let txy := ty * qx q in let txz := tz * qx q in
  let tyy := ty * qy q in let tyz := tz * qy q in let tzz := tz * qz q in
  M3 (1 - (tyy + tzz)) (txy - twz) (txz + twy)
     (txy + twz) (1 - (txx + tzz)) (tyz - twx)
     (txz - twy) (tyz + twx) (1 - (txx + tyy)).

(** external: Eigen's quaternion product and conjugate. *)
Definition qmul (a b : quat) : quat :=
  Q (qw a * qw b - qx a * qx b - qy a * qy b - qz a * qz b)
    (qw a * qx b + qx a * qw b + qy a * qz b - qz a * qy b)
    (qw a * qy b + qy a * qw b + qz a * qx b - qx a * qz b)
    (qw a * qz b + qz a * qw b + qx a * qy b - qy a * qx b).
Definition qconj (a : quat) : quat := Q (qw a) (- qx a) (- qy a) (- qz a).

(** external: Eigen's quaternion from a rotation matrix (Shoemake): the branch
    is chosen by the trace, then by the largest diagonal coefficient. *)
Definition matToQuat (m : mat3) : quat :=
  let tr := m00 m + m11 m + m22 m in
  if Rlt_dec 0 tr then
    let t := sqrt (tr + 1) in
    let s := 1 / 2 / t in
    Q (1 / 2 * t) ((m21 m - m12 m) * s) ((m02 m - m20 m) * s)
      ((m10 m - m01 m) * s)
  else
    let i1 := if Rlt_dec (m00 m) (m11 m) then true else false in
    let dii := if i1 then m11 m else m00 m in
    if Rlt_dec dii (m22 m) then
      let t := sqrt (m22 m - m00 m - m11 m + 1) in
      let s := 1 / 2 / t in
      Q ((m10 m - m01 m) * s) ((m02 m + m20 m) * s) ((m12 m + m21 m) * s)
        (1 / 2 * t)
    else if i1 then
      let t := sqrt (m11 m - m22 m - m00 m + 1) in
      let s := 1 / 2 / t in
      Q ((m02 m - m20 m) * s) ((m01 m + m10 m) * s) (1 / 2 * t)
        ((m21 m + m12 m) * s)
    else
      let t := sqrt (m00 m - m11 m - m22 m + 1) in
      let s := 1 / 2 / t in
      Q ((m21 m - m12 m) * s) (1 / 2 * t) ((m10 m + m01 m) * s)
        ((m20 m + m02 m) * s).

(** VectorUTheta = Eigen::AngleAxis<double> (matrix-geometry.hh:77). *)
Record aaxis := AA { ang : R; axis : vec3 }.

(** external: std::atan2. *)
Definition atan2 (y x : R) : R :=
  if Rlt_dec 0 x then atan (y / x)
  else if Rlt_dec x 0 then
    if Rle_dec 0 y then atan (y / x) + PI else atan (y / x) - PI
  else if Rlt_dec 0 y then PI / 2
  else if Rlt_dec y 0 then - (PI / 2)
  else 0.

(** external: Eigen's angle-axis from a quaternion.  The re-computation of a
    tiny norm by stableNorm is the identity over the reals. *)
Definition quatToAA (q : quat) : aaxis :=
  let vec := V3 (qx q) (qy q) (qz q) in
  let n := vnorm vec in
  if Req_EM_T n 0 then AA 0 (V3 1 0 0)
  else
    let a := 2 * atan2 n (Rabs (qw q)) in
    let n' := if Rlt_dec (qw q) 0 then - n else n in
    AA a (vscal (/ n') vec).

(** external: AngleAxis from a rotation matrix. *)
Definition matToAA (m : mat3) : aaxis := quatToAA (matToQuat m).

(** external: quaternion from an angle-axis. *)
Definition aaToQuat (a : aaxis) : quat :=
  let s := sin (1 / 2 * ang a) in
  Q (cos (1 / 2 * ang a)) (s * vx (axis a)) (s * vy (axis a)) (s * vz (axis a)).

(** external: AngleAxis::toRotationMatrix (Rodrigues' formula). *)
Definition aaToMat (a : aaxis) : mat3 :=
  let sa := vscal (sin (ang a)) (axis a) in
  let c := cos (ang a) in
  let ca := vscal (1 - c) (axis a) in
  M3 (vx ca * vx (axis a) + c) (vx ca * vy (axis a) - vz sa)
     (vx ca * vz (axis a) + vy sa)
     (vx ca * vy (axis a) + vz sa) (vy ca * vy (axis a) + c)
     (vy ca * vz (axis a) - vx sa)
     (vx ca * vz (axis a) - vy sa) (vy ca * vz (axis a) + vx sa)
     (vz ca * vz (axis a) + c).

(** external: eulerAngles(2, 1, 0) (Eigen 3.3: odd permutation, i=2, j=1,
    k=0); the three angles in the order returned. *)
Definition eulerAngles210 (m : mat3) : vec3 :=
  let r0 := atan2 (m10 m) (m00 m) in
  let c2 := sqrt (m22 m * m22 m + m21 m * m21 m) in
  let flip := if Rlt_dec r0 0 then true else false in
  let r0' := if flip then r0 + PI else r0 in
  let r1 := if flip then atan2 (- m20 m) (- c2) else atan2 (- m20 m) c2 in
  let s1 := sin r0' in
  let c1 := cos r0' in
  V3 r0' r1 (atan2 (s1 * m02 m - c1 * m12 m) (c1 * m11 m - s1 * m01 m)).

Definition reverse (v : vec3) := V3 (vz v) (vy v) (vx v).

(* ---------------------------------------------------------------- *)
(** ** Conversion operators of src/matrix/operator.hh *)

(** Reading coefficient i of a dynamic vector: out of range is undefined
    behaviour (Eigen's assertion is compiled out in release). *)
Definition rget (v : list R) (i : nat) : outcome R := vget v i.

Definition get3 (v : list R) (i : nat) : outcome vec3 :=
  let* a := rget v i in
  let* b := rget v (i + 1)%nat in
  let* c := rget v (i + 2)%nat in
  Ok (V3 a b c).

(** [tail<n>()]: starting position of the last n coefficients. *)
Definition tail3 (v : list R) : outcome vec3 :=
  if (length v <? 3)%nat then UB else get3 v (length v - 3)%nat.

Definition vlist (v : vec3) : list R := [vx v; vy v; vz v].

Definition unitX := V3 1 0 0.
Definition unitY := V3 0 1 0.
Definition unitZ := V3 0 0 1.

(** operator.hh:275-277 InverserRotation. *)
Definition inverserRotation (m : mat3) : mat3 := mT m.
(** operator.hh:279-282 InverserQuaternion. *)
Definition inverserQuaternion (q : quat) : quat := qconj q.

(** operator.hh:288-296 MatrixHomoToPoseUTheta. *)
Definition matrixHomoToPoseUTheta (m : hom) : list R :=
  let r := matToAA (lin m) in
  vlist (trn m) ++ vlist (vscal (ang r) (axis r)).

(** operator.hh:298-305 SkewSymToVector: single-index access to a 3x3
    column-major matrix, coefficient k is row (k mod 3), column (k / 3). *)
Definition linear_index (m : mat3) (k : nat) : R :=
  nth k [m00 m; m10 m; m20 m; m01 m; m11 m; m21 m; m02 m; m12 m; m22 m] 0.
Definition skewSymToVector (m : mat3) : vec3 :=
  V3 (linear_index m 7) (linear_index m 2) (linear_index m 3).

(** operator.hh:307-318 PoseUThetaToMatrixHomo.  The assertion on the size
    is compiled out in release; tail<3> counts from the end. *)
Definition poseUThetaToMatrixHomo (v : list R) : outcome hom :=
  let* t := get3 v 0 in
  let* u := tail3 v in
  let theta := vnorm u in
  let r := if Rlt_dec 0 theta then aaToMat (AA theta (vscal (/ theta) u))
           else mid in
  Ok (H r t).

(** operator.hh:320-328 SE3VectorToMatrixHomo. *)
Definition sE3VectorToMatrixHomo (v : list R) : outcome hom :=
  let* t := get3 v 0 in
  let* r0 := get3 v 3 in
  let* r1 := get3 v 6 in
  let* r2 := get3 v 9 in
  Ok (H (M3 (vx r0) (vy r0) (vz r0) (vx r1) (vy r1) (vz r1)
            (vx r2) (vy r2) (vz r2)) t).

(** operator.hh:330-339 MatrixHomoToSE3Vector. *)
Definition matrixHomoToSE3Vector (m : hom) : list R :=
  let r := lin m in
  vlist (trn m) ++ [m00 r; m01 r; m02 r] ++ [m10 r; m11 r; m12 r]
  ++ [m20 r; m21 r; m22 r].

(** operator.hh:341-347 PoseQuaternionToMatrixHomo: the last four
    coefficients are x, y, z, w (Eigen's storage order). *)
Definition poseQuaternionToMatrixHomo (v : list R) : outcome hom :=
  let* t := get3 v 0 in
  if (length v <? 4)%nat then UB else
  let* u := get3 v (length v - 4)%nat in
  let* w := rget v (length v - 1)%nat in
  Ok (H (quatToMat (Q w (vx u) (vy u) (vz u))) t).

(** operator.hh:349-357 MatrixHomoToPoseQuaternion. *)
Definition matrixHomoToPoseQuaternion (m : hom) : list R :=
  let q := matToQuat (lin m) in
  vlist (trn m) ++ [qx q; qy q; qz q; qw q].

(** operator.hh:451-458 RPYToMatrix: a product of three angle-axis objects is
    a quaternion product in Eigen. *)
Definition rPYToMatrix (r : vec3) : mat3 :=
  quatToMat (qmul (qmul (aaToQuat (AA (vz r) unitZ))
                        (aaToQuat (AA (vy r) unitY)))
                  (aaToQuat (AA (vx r) unitX))).

(** operator.hh:460-464 MatrixToRPY. *)
Definition matrixToRPY (m : mat3) : vec3 := reverse (eulerAngles210 m).

(** operator.hh:466-474 RPYToQuaternion. *)
Definition rPYToQuaternion (r : vec3) : quat := matToQuat (rPYToMatrix r).
(** operator.hh:476-481 QuaternionToRPY. *)
Definition quaternionToRPY (q : quat) : vec3 :=
  reverse (eulerAngles210 (quatToMat q)).
(** operator.hh:483-488 QuaternionToMatrix. *)
Definition quaternionToMatrix (q : quat) : mat3 := quatToMat q.
(** operator.hh:490-495 MatrixToQuaternion. *)
Definition matrixToQuaternion (m : mat3) : quat := matToQuat m.
(** operator.hh:497-501 MatrixToUTheta. *)
Definition matrixToUTheta (m : mat3) : aaxis := matToAA m.
(** operator.hh:503-508 UThetaToQuaternion. *)
Definition uThetaToQuaternion (a : aaxis) : quat := aaToQuat a.

(** operator.hh:359-369 MatrixHomoToPoseRollPitchYaw. *)
Definition matrixHomoToPoseRollPitchYaw (m : hom) : list R :=
  vlist (trn m) ++ vlist (reverse (eulerAngles210 (lin m))).

(** operator.hh:371-387 PoseRollPitchYawToMatrixHomo. *)
Definition poseRollPitchYawToMatrixHomo (v : list R) : outcome hom :=
  let* r := get3 v 3 in
  let R := rPYToMatrix r in
  let* t := get3 v 0 in
  Ok (H R t).

(** operator.hh:389-407 PoseRollPitchYawToPoseUTheta. *)
Definition poseRollPitchYawToPoseUTheta (v : list R) : outcome (list R) :=
  let* r := get3 v 3 in
  let rr := matToAA (rPYToMatrix r) in
  let* t := get3 v 0 in
  Ok (vlist t ++ vlist (vscal (ang rr) (axis rr))).

(** operator.hh:438-443 HomoToRotation; 445-449 MatrixHomoToPose. *)
Definition homoToRotation (m : hom) : mat3 := lin m.
Definition matrixHomoToPose (m : hom) : list R := vlist (trn m).

(** operator.hh:649-658 Composer: the matrix is 3x3 (Eigen asserts). *)
Definition composer (r : mat3) (t : vec3) : hom := H r t.

(* ---------------------------------------------------------------- *)
(** ** VectorToRotation (src/matrix/vector-to-rotation.cpp) *)
Inductive axis_t := AXIS_X | AXIS_Y | AXIS_Z.

(** vector-to-rotation.cpp:48-75: the elementary matrix of one angle. *)
Definition axisMat (a : axis_t) (x : R) : mat3 :=
  let ca := cos x in
  let sa := sin x in
  match a with
  | AXIS_X => M3 1 0 0 0 ca (- sa) 0 sa ca
  | AXIS_Y => M3 ca 0 sa 0 1 0 (- sa) 0 ca
  | AXIS_Z => M3 ca (- sa) 0 sa ca 0 0 0 1
  end.

(** vector-to-rotation.cpp:43-82 computeRotation: [size] loop turns, reading
    axes[i] and angles(i). *)
Definition computeRotation (size : nat) (axes : list axis_t) (angles : list R)
  : outcome mat3 :=
  ofor_range 0 size
    (fun i res =>
       let* x := rget angles i in
       let* a := vget axes i in
       Ok (mmul res (axisMat a x)))
    mid.
