(** Free-flyer conversions of RobotUtil (src/tools/robot-utils.cpp:317-503): base, velocity and whole
    configuration between the URDF order (position, quaternion x y z w, joints) and the SoT order
    (position, roll pitch yaw, joints).  Numbers are reals.  A failed assertion (sizes) is an access
    out of bounds in a release build: UB.  The global functions base_urdf_to_sot and base_sot_to_urdf
    (466-503) have the same text as the methods (355-394). *)
From Coq Require Import String List Arith Lia ZArith Bool Reals Lra.
From Verif Require Import Base Geom_Model Robot_Model.
Import ListNotations.
Local Open Scope R_scope.

(** robot-utils.cpp:441-464 base_se3_to_sot *)
Definition base_se3_to_sot (pos : vec3) (m : mat3) : list R :=
  let mm := sqrt (m21 m * m21 m + m22 m * m22 m) in
  let p := atan2 (- m20 m) mm in
  let '(r, y) :=
    if Rlt_dec (Rabs (Rabs p - PI / 2)) (1 / 1000)
    then (0, - atan2 (m01 m) (m11 m))
    else (atan2 (m21 m) (m22 m), atan2 (m10 m) (m00 m)) in
  [vx pos; vy pos; vz pos; r; p; y].

(** robot-utils.cpp:355-365, 466-476 base_urdf_to_sot *)
Definition base_urdf_to_sot (q : list R) : outcome (list R) :=
  match q with
  | [px; py; pz; x; y; z; w] => Ok (base_se3_to_sot (V3 px py pz) (quatToMat (Q w x y z)))
  | _ => UB
  end.

(** robot-utils.cpp:367-387, 478-503 base_sot_to_urdf *)
Definition base_sot_to_urdf (q : list R) : outcome (list R) :=
  match q with
  | [px; py; pz; r; p; y] =>
      let quat := qmul (qmul (aaToQuat (AA y unitZ)) (aaToQuat (AA p unitY))) (aaToQuat (AA r unitX)) in
      Ok [px; py; pz; qx quat; qy quat; qz quat; qw quat]
  | _ => UB
  end.

(** The conversions write into a vector of the caller: previous contents [s], result. *)

(** robot-utils.cpp:389-397 config_urdf_to_sot *)
Definition config_urdf_to_sot (r : robot) (q s : list R) : outcome (list R) :=
  match ru_nb r with
  | None => UB
  | Some n =>
      if (length q =? n + 7)%nat && (length s =? n + 6)%nat then
        let* b := base_urdf_to_sot (firstn 7 q) in
        let* j := joints_urdf_to_sot r (skipn 7 q) (skipn 6 s) in
        Ok (b ++ snd j)%list
      else UB
  end.

(** robot-utils.cpp:399-405 config_sot_to_urdf *)
Definition config_sot_to_urdf (r : robot) (s q : list R) : outcome (list R) :=
  match ru_nb r with
  | None => UB
  | Some n =>
      if (length q =? n + 7)%nat && (length s =? n + 6)%nat then
        let* b := base_sot_to_urdf (firstn 6 s) in
        let* j := joints_sot_to_urdf r (skipn 6 s) (skipn 7 q) in
        Ok (b ++ snd j)%list
      else UB
  end.

(** The rotation of the base: coefficients 3 to 6 of the URDF configuration. *)
Definition base_rotation (q : list R) : outcome mat3 :=
  let* x := vget q 3 in let* y := vget q 4 in let* z := vget q 5 in let* w := vget q 6 in
  Ok (quatToMat (Q w x y z)).

(** robot-utils.cpp:317-334 velocity_urdf_to_sot: returned value, contents of the output. *)
Definition velocity_urdf_to_sot (r : robot) (q v s : list R) : outcome (bool * list R) :=
  match ru_nb r with
  | None => UB
  | Some n =>
      if (length q =? n + 7)%nat && (length v =? n + 6)%nat && (length s =? n + 6)%nat then
        match n with
        | O => Ok (false, s)
        | _ =>
          let* oRb := base_rotation q in
          let* a := get3 v 0 in
          let* b := get3 v 3 in
          let* j := joints_urdf_to_sot r (skipn 6 v) (skipn 6 s) in
          Ok (true, vlist (mapp oRb a) ++ vlist (mapp oRb b) ++ snd j)%list
        end
      else UB
  end.

(** robot-utils.cpp:336-353 velocity_sot_to_urdf *)
Definition velocity_sot_to_urdf (r : robot) (q s v : list R) : outcome (bool * list R) :=
  match ru_nb r with
  | None => UB
  | Some n =>
      if (length q =? n + 7)%nat && (length v =? n + 6)%nat && (length s =? n + 6)%nat then
        match n with
        | O => Ok (false, v)
        | _ =>
          let* oRb := base_rotation q in
          let* a := get3 s 0 in
          let* b := get3 s 3 in
          let* j := joints_sot_to_urdf r (skipn 6 s) (skipn 6 v) in
          Ok (true, vlist (mapp (mT oRb) a) ++ vlist (mapp (mT oRb) b) ++ snd j)%list
        end
      else UB
  end.
