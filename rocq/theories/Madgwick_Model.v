(** MadgwickAHRS (src/filters/madgwickahrs.cpp, include/sot/core/madgwickahrs.hh): orientation
    filter of an inertial unit.  Numbers are reals; the inverse square root of zero (an infinity,
    then NaN, in the code) is the outcome [None] of an update.  The quaternion type is the one of
    Geom_Model: m_q0 = w, m_q1 = x, m_q2 = y, m_q3 = z. *)
From Coq Require Import String List Arith Lia ZArith Bool Reals Lra SpecFloat.
From Verif Require Import Base Float_Facts Geom_Model.
Import ListNotations.
Local Open Scope R_scope.

Record mad := mkMad { ma_init : bool; ma_beta : R; ma_q : quat; ma_freq : R }.
(** madgwickahrs.cpp:45-58, madgwickahrs.hh:58 *)
Definition ma_start : mad := mkMad false (1 / 100) (Q 1 0 0 0) 512.

(** madgwickahrs.cpp:78-82 init *)
Definition ma_do_init (s : mad) (dt : R) : mad :=
  if Rle_dec dt 0 then s else mkMad true (ma_beta s) (ma_q s) (1 / dt).
(** madgwickahrs.cpp:84-88 set_beta *)
Definition set_beta (s : mad) (b : R) : mad :=
  if Rlt_dec b 0 then s else if Rlt_dec 1 b then s else mkMad (ma_init s) b (ma_q s) (ma_freq s).
(** the same test on binary64 numbers *)
Definition set_beta_accepts (b : float) : bool := negb (fltb b f0 || fltb f1 b).
(** madgwickahrs.cpp:90-96 set_imu_quat: four coefficients *)
Definition set_imu_quat (s : mad) (q : quat) : mad := mkMad (ma_init s) (ma_beta s) q (ma_freq s).

(** madgwickahrs.cpp:135-146 invSqrt *)
Definition invSqrt (x : R) : option R := if Rlt_dec 0 x then Some (1 / sqrt x) else None.

(** madgwickahrs.cpp:157-161: rate of change from the gyroscope *)
Definition gyro_rate (q : quat) (g : vec3) : quat :=
  let '(Q q0 q1 q2 q3) := q in
  let '(V3 gx gy gz) := g in
  Q (1 / 2 * (- q1 * gx - q2 * gy - q3 * gz))
    (1 / 2 * (q0 * gx + q2 * gz - q3 * gy))
    (1 / 2 * (q0 * gy - q1 * gz + q3 * gx))
    (1 / 2 * (q0 * gz + q1 * gy - q2 * gx)).

(** madgwickahrs.cpp:171-194: corrective step, for a normalised acceleration *)
Definition corrective (q : quat) (a : vec3) : quat :=
  let '(Q q0 q1 q2 q3) := q in
  let '(V3 ax ay az) := a in
  let o2q0 := 2 * q0 in let o2q1 := 2 * q1 in let o2q2 := 2 * q2 in let o2q3 := 2 * q3 in
  let o4q0 := 4 * q0 in let o4q1 := 4 * q1 in let o4q2 := 4 * q2 in
  let o8q1 := 8 * q1 in let o8q2 := 8 * q2 in
  let q0q0 := q0 * q0 in let q1q1 := q1 * q1 in let q2q2 := q2 * q2 in let q3q3 := q3 * q3 in
  Q (o4q0 * q2q2 + o2q2 * ax + o4q0 * q1q1 - o2q1 * ay)
    (o4q1 * q3q3 - o2q3 * ax + 4 * q0q0 * q1 - o2q0 * ay - o4q1 + o8q1 * q1q1 + o8q1 * q2q2 + o4q1 * az)
    (4 * q0q0 * q2 + o2q0 * ax + o4q2 * q3q3 - o2q3 * ay - o4q2 + o8q2 * q1q1 + o8q2 * q2q2 + o4q2 * az)
    (4 * q1q1 * q3 - o2q1 * ax + 4 * q2q2 * q3 - o2q2 * ay).

Definition qdot (a b : quat) : R := qw a * qw b + qx a * qx b + qy a * qy b + qz a * qz b.
Definition qscal (k : R) (a : quat) : quat := Q (k * qw a) (k * qx a) (k * qy a) (k * qz a).
Definition qadd (a b : quat) : quat := Q (qw a + qw b) (qx a + qx b) (qy a + qy b) (qz a + qz b).
Definition qzerob (a : quat) : bool :=
  if Req_EM_T (qw a) 0 then if Req_EM_T (qx a) 0 then if Req_EM_T (qy a) 0 then if Req_EM_T (qz a) 0 then true
  else false else false else false else false.
Definition vzerob (a : vec3) : bool :=
  if Req_EM_T (vx a) 0 then if Req_EM_T (vy a) 0 then if Req_EM_T (vz a) 0 then true
  else false else false else false.

(** madgwickahrs.cpp:149-218 madgwickAHRSupdateIMU *)
Definition updateIMU (s : mad) (g a : vec3) : option mad :=
  let q := ma_q s in
  let rate0 := gyro_rate q g in
  let rate :=
    if vzerob a then Some rate0
    else
      match invSqrt (vx a * vx a + vy a * vy a + vz a * vz a) with
      | None => None
      | Some n =>
          let st := corrective q (V3 (vx a * n) (vy a * n) (vz a * n)) in
          if qzerob st then Some rate0
          else match invSqrt (qdot st st) with
               | None => None
               | Some m => Some (qadd rate0 (qscal (- ma_beta s) (qscal m st)))
               end
      end in
  match rate with
  | None => None
  | Some r =>
      let q1 := qadd q (qscal (1 / ma_freq s) r) in
      match invSqrt (qdot q1 q1) with
      | None => None
      | Some n => Some (mkMad (ma_init s) (ma_beta s) (qscal n q1) (ma_freq s))
      end
  end.

(** madgwickahrs.cpp:102-126: one evaluation of the output signal; the vectors of the signals have at
    least three coefficients.  Before init the signal keeps its previous contents and nothing is
    updated. *)
Definition imu_quat (s : mad) (g a : vec3) : option (mad * option quat) :=
  if ma_init s then
    match updateIMU s g a with Some s' => Some (s', Some (ma_q s')) | None => None end
  else Some (s, None).

Inductive mcmd := MInit (dt : R) | MBeta (b : R) | MQuat (q : quat) | MStep (g a : vec3).
Definition mexec (s : mad) (c : mcmd) : option mad :=
  match c with
  | MInit dt => Some (ma_do_init s dt)
  | MBeta b => Some (set_beta s b)
  | MQuat q => Some (set_imu_quat s q)
  | MStep g a => match imu_quat s g a with Some (s', _) => Some s' | None => None end
  end.
Fixpoint mrun (s : mad) (l : list mcmd) : option mad :=
  match l with [] => Some s | c :: r => match mexec s c with Some s' => mrun s' r | None => None end end.
