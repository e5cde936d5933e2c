(** The free flyer of the robot device: src/tools/device.cpp:40-65 (integrateRollPitchYaw,
    freeFlyerPose), over the reals, and the device of Device_Model with it.

    pinocchio is not in the repository: the integration of the group SE(3) it provides is modelled
    from its documented algorithm and marked "external".  Its Taylor expansions near a null angular
    velocity are replaced by the exact functions. *)
From Coq Require Import String List Arith Lia ZArith Bool Reals.
From Verif Require Import Base Device_Model Geom_Model.
Import ListNotations.
Local Open Scope R_scope.

(** external: pinocchio::exp3. *)
Definition exp3 (w : vec3) : mat3 :=
  let t := vnorm w in
  if Req_EM_T t 0 then mid else aaToMat (AA t (vscal (/ t) w)).

(** external: pinocchio::exp6. *)
Definition exp6 (n : vec3 * vec3) : hom :=
  let '(v, w) := n in
  let t := vnorm w in
  H (exp3 w)
    (if Req_EM_T t 0 then v
     else vadd v (vadd (vscal ((1 - cos t) / (t * t)) (cross w v))
                       (vscal ((t - sin t) / (t * t * t)) (cross w (cross w v))))).

(** external: pinocchio::quaternion::firstOrderNormalize and Eigen's dot product. *)
Definition qdot (a b : quat) : R := qw a * qw b + qx a * qx b + qy a * qy b + qz a * qz b.
Definition qscale (k : R) (a : quat) : quat := Q (k * qw a) (k * qx a) (k * qy a) (k * qz a).
Definition firstOrderNormalize (q : quat) : quat := qscale ((3 - qdot q q) / 2) q.

(** external: SpecialEuclideanOperationTpl<3>::integrate: the pose times the exponential, as a
    position and the quaternion that is on the side of the old one. *)
Definition se3_integrate (q : vec3 * quat) (n : vec3 * vec3) : vec3 * quat :=
  let m1 := hmul (H (quatToMat (snd q)) (fst q)) (exp6 n) in
  let r := matToQuat (lin m1) in
  let r := if Rlt_dec (qdot r (snd q)) 0 then qscale (-1) r else r in
  (trn m1, firstOrderNormalize r).

(** device.cpp:40-63: new position, roll, pitch, yaw, and the pose of the free flyer.  [q] is the
    position and the angles, [n] the first six velocities. *)
Definition integrateRollPitchYaw (q : vec3 * vec3) (n : vec3 * vec3) (dt : R) : (vec3 * vec3) * hom :=
  let quat := qmul (qmul (aaToQuat (AA (vz (snd q)) unitZ)) (aaToQuat (AA (vy (snd q)) unitY)))
                   (aaToQuat (AA (vx (snd q)) unitX)) in
  let out := se3_integrate (fst q, quat) (vscal dt (fst n), vscal dt (snd n)) in
  let pose := H (quatToMat (snd out)) (fst out) in
  ((fst out, reverse (eulerAngles210 (lin pose))), pose).

(** The first six coefficients of a vector. *)
Definition head6 (v : list R) : vec3 * vec3 :=
  (V3 (nth 0 v 0) (nth 1 v 0) (nth 2 v 0), V3 (nth 3 v 0) (nth 4 v 0) (nth 5 v 0)).

(** The parameter of Device_Model. *)
Definition ff_integrate (st vc : list R) (dt : R) : R * R * R * R * R * R :=
  let '(p, r) := fst (integrateRollPitchYaw (head6 st) (head6 vc) dt) in
  (vx p, vy p, vz p, vx r, vy r, vz r).

Definition rltb (a b : R) : bool := if Rlt_dec a b then true else false.

(** A device and the member ffPose_ (device.hh:152), a transformation without value until the first
    integration (device.cpp:98). *)
Record ffdev := FF { dev : device R; pose : option hom }.

(** device.cpp:65 *)
Definition freeFlyerPose (f : ffdev) : outcome hom :=
  match pose f with Some m => Ok m | None => UB end.

(** device.cpp:414-476, 504-553: a step.  The control is the velocity, or in second order mode the
    acceleration; the pose is written when there are as many velocities as coefficients. *)
Definition r_exec := dexec R 0 (1 / 2) Rplus Rmult rltb (fun _ => false) ff_integrate.
Definition ff_velocity (d : device R) (u : list R) (dt : R) : list R :=
  match ctype d with
  | TwoInteg =>
      Device_Model.vadd R Rplus (skipn (length (velocity d) - length u) (velocity d))
                        (vscale R Rmult u (1 / 2 * dt))
  | _ => u
  end.
Definition ff_exec (f : ffdev) (c : dcmd R) : outcome ffdev :=
  let* d := r_exec (dev f) c in
  Ok (FF d (match c with
            | DStep u dt =>
                match ctype (dev f) with
                | NoInteg => pose f
                | _ =>
                    let vc := ff_velocity (dev f) u dt in
                    if (length vc =? length (state (dev f)))%nat
                    then Some (snd (integrateRollPitchYaw (head6 (state (dev f))) (head6 vc) dt))
                    else pose f
                end
            | _ => pose f
            end)).
Definition ff_new : ffdev := FF (dev_init R 0) None.
(** A command that throws leaves the device as it was. *)
Definition ff_send (f : ffdev) (c : dcmd R) : outcome ffdev :=
  match ff_exec f c with Throw _ => Ok f | o => o end.
Definition ff_run (cs : list (dcmd R)) (f : ffdev) : outcome ffdev := ofold ff_send cs f.
