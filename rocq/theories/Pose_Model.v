(** FeaturePose (include/sot/core/feature-pose.hxx), for both representations
    of the error.

    Scalars are the reals.  A homogeneous matrix, a jacobian and the Eigen
    operations are those of Geom_Model and OpPoint_Model; the logarithms and
    their jacobians (pinocchio, external) are [rotvec], [jlog], [log6] and
    [jlog6].  [g] is the content of an output before it is written (Eigen's
    resize does not initialise).  Transform::rotation(), the rotation nearest
    to the linear part, is the linear part itself: poses are rigid. *)
From Coq Require Import String List Arith Lia ZArith Bool Reals Lra.
From Verif Require Import Base Flags_Model Feature_Model Geom_Model OpPoint_Model
  Rodr_Facts Log6_Facts Point6d_Model.
Import ListNotations.
Local Open Scope R_scope.

(** feature-pose.hh: Representation_t; feature-pose.hxx:30-43 LG_t. *)
Inductive repr := SE3 | R3xSO3.

(** feature-pose.hxx:54-66: the inputs.  [None]: the signal is not plugged. *)
Record pose_in := mkPoseIn {
  oMja : hom; jaMfa : hom; oMjb : hom; jbMfb : hom;
  jaJja : option jac; jbJjb : jac;
  faMfbDes : hom; faNu : option (list R) }.

(** feature-pose.hxx:73-77: the inputs that have a value from the start; the
    other frame and its jacobian have none. *)
Definition pose_defaults (mb : hom) (jb : jac) : pose_in :=
  mkPoseIn hid hid mb hid None jb hid (Some [0; 0; 0; 0; 0; 0]).

(** feature-pose.hxx:122-135 getDimension. *)
Definition pose_dimension (fl : Flags) : outcome nat := count_flags fl 6.

(** feature-pose.hxx:204-213 computefaMfb. *)
Definition pose_faMfb (i : pose_in) : hom :=
  hmul (hmul (hinv (hmul (oMja i) (jaMfa i))) (oMjb i)) (jbMfb i).

(** feature-pose.hxx:137-140, 215-229: the position and the quaternion of a
    pose; external: pinocchio reads them back as a pose. *)
Definition toVector (m : hom) : vec3 * quat := (trn m, matToQuat (lin m)).
Definition ofVector (q : vec3 * quat) : hom := H (quatToMat (snd q)) (fst q).

(** external: pinocchio difference of the two Lie groups. *)
Definition lg_difference (r : repr) (q0 q1 : vec3 * quat) : vec3 * vec3 :=
  let m0 := ofVector q0 in let m1 := ofVector q1 in
  match r with
  | SE3 => log6 (hmul (hinv m0) m1)
  | R3xSO3 => (vsub (trn m1) (trn m0), rotvec (mmul (mT (lin m0)) (lin m1)))
  end.

(** external: pinocchio dDifference, second argument. *)
Definition lg_dDiff1 (r : repr) (q0 q1 : vec3 * quat) : twist :=
  let m0 := ofVector q0 in let m1 := ofVector q1 in
  match r with
  | SE3 => jlog6 (hmul (hinv m0) m1)
  | R3xSO3 => T6 mid mzero mzero (jlog (rotvec (mmul (mT (lin m0)) (lin m1))))
  end.

(** external: pinocchio dDifference, first argument. *)
Definition topp (x : twist) : twist :=
  T6 (mopp (b00 x)) (mopp (b01 x)) (mopp (b10 x)) (mopp (b11 x)).
Definition lg_dDiff0 (r : repr) (q0 q1 : vec3 * quat) : twist :=
  let m0 := ofVector q0 in let m1 := ofVector q1 in
  match r with
  | SE3 => let m := hmul (hinv m0) m1 in topp (tmul (jlog6 m) (buildFrom (hinv m)))
  | R3xSO3 =>
      let d := mmul (mT (lin m0)) (lin m1) in
      topp (T6 mid mzero mzero (mmul (jlog (rotvec d)) (mT d)))
  end.

(** feature-pose.hxx:231-247 computeError. *)
Definition pose_error (g : R) (r : repr) (fl : Flags) (i : pose_in) : outcome (list R) :=
  let v := lg_difference r (toVector (faMfbDes i)) (toVector (pose_faMfb i)) in
  let* dim := pose_dimension fl in
  collect fl (fun k => Ok (v6at v k)) 6 (repeat g dim).

(** "X.topRows<3>().applyOnTheLeft(faRfb)" for R3xSO3 only. *)
Definition top_rows (r : repr) (m : mat3) (x : twist) : twist :=
  match r with
  | SE3 => x
  | R3xSO3 => T6 (mmul m (b00 x)) (mmul m (b01 x)) (b10 x) (b11 x)
  end.

(** One step of the loop "if (fl(r)) J.row(rJ++) -= ...": rows of different
    sizes are an error (assertion of Eigen). *)
Fixpoint row_sub (a b : list R) : outcome (list R) :=
  match a, b with
  | [], [] => Ok []
  | x :: a', y :: b' => let* r := row_sub a' b' in Ok (x - y :: r)
  | _, _ => UB
  end.
Definition sub_step (fl : Flags) (f : nat -> list R) (st : nat * list (list R)) (r : nat)
  : outcome (nat * list (list R)) :=
  let '(rJ, J) := st in
  let* b := at_ fl (Z.of_nat r) in
  if b then
    let* old := vget J rJ in
    let* new := row_sub old (f r) in
    let* J' := vset J rJ new in
    Ok (S rJ, J')
  else Ok (rJ, J).

(** feature-pose.hxx:148-202 computeJacobian. *)
Definition pose_jacobian (g : list R) (r : repr) (fl : Flags) (i : pose_in)
  : outcome (list (list R)) :=
  let q_faMfb := toVector (pose_faMfb i) in
  let q_faMfbDes := toVector (faMfbDes i) in
  let* dim := pose_dimension fl in
  let X := buildFrom (hinv (jbMfb i)) in
  let faRfb := mmul (mmul (mmul (mT (lin (jaMfa i))) (mT (lin (oMja i)))) (lin (oMjb i)))
                    (lin (jbMfb i)) in
  let X := top_rows r faRfb X in
  let Jminus := lg_dDiff1 r q_faMfbDes q_faMfb in
  let* J := collect fl (fun k => Ok (jrow (tjac (tmul Jminus X) (jbJjb i)) k)) 6 (repeat g dim) in
  match jaJja i with
  | None => Ok J
  | Some ja =>
      let X := buildFrom (hinv (hmul (jaMfa i) (pose_faMfb i))) in
      let X := top_rows r faRfb X in
      let* (_, J') := ofold (sub_step fl (jrow (tjac (tmul Jminus X) ja))) (seq 0 6) (0%nat, J) in
      Ok J'
  end.

(** feature-pose.hxx:252-270 convertVelocity.  The input must have six
    coefficients (for SE3 Eigen asserts it; R3xSO3 with another size is not
    modelled). *)
Definition get6 (l : list R) : outcome (vec3 * vec3) :=
  match l with
  | [a; b; c; d; e; f] => Ok (V3 a b c, V3 d e f)
  | _ => UB
  end.
Definition convertVelocity (r : repr) (M Mdes : hom) (nu : vec3 * vec3) : vec3 * vec3 :=
  match r with
  | SE3 => tapp (buildFrom (hinv Mdes)) nu
  | R3xSO3 => (vsub (fst nu) (cross (trn M) (snd nu)), mapp (mT (lin Mdes)) (snd nu))
  end.

(** feature-pose.hxx:272-302 computeErrorDot. *)
Definition pose_errordot (g : R) (r : repr) (fl : Flags) (i : pose_in) : outcome (list R) :=
  let* dim := pose_dimension fl in
  match faNu i with
  | None => Ok (repeat 0 dim)
  | Some l =>
      let Jminus := lg_dDiff0 r (toVector (faMfbDes i)) (toVector (pose_faMfb i)) in
      let* v := get6 l in
      let nu := convertVelocity r (pose_faMfb i) (faMfbDes i) v in
      collect fl (fun k => Ok (v6at (tapp Jminus nu) k)) 6 (repeat g dim)
  end.

(** feature-pose.hxx:304-320 servoCurrentPosition (command keep). *)
Definition pose_keep (i : pose_in) : pose_in :=
  mkPoseIn (oMja i) (jaMfa i) (oMjb i) (jbMfb i) (jaJja i) (jbJjb i)
    (hmul (hmul (hinv (hmul (oMja i) (jaMfa i))) (oMjb i)) (jbMfb i)) (faNu i).
