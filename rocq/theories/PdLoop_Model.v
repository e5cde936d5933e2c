(** The loop closed on a ControlPD: the last joints of a device that integrates accelerations
    follow a reference.  At each tick the application reads the control of the ControlPD
    (src/control/control-pd.cpp:82-104), whose inputs position and velocity are the last joints of
    the signals state and velocity of the device (operator.hh, Selec_of_vector from [k]), and gives
    it to Device::increment (src/tools/device.cpp:414-476).  The parts are the models of Tools_Model
    and Device_Model over the reals; this file only connects them. *)
From Coq Require Import String List Arith Lia Bool Reals.
From Verif Require Import Base Device_Model Tools_Model.
Import ListNotations.
Local Open Scope R_scope.

Section PdLoop.
Variable ltb : R -> R -> bool.
Variable isnan : R -> bool.
Variable ffint : list R -> list R -> R -> R * R * R * R * R * R.

(** One tick; [qd], [vd]: values of the signals desired_position and desired_velocity. *)
Definition pd_tick (k : nat) (kp kd : list R) (dt : R) (d : device R) (ref : list R * list R)
  : outcome (device R) :=
  let* (tau, _, _) := pd_control kp kd (skipn k (stateOut d)) (fst ref) (skipn k (velOut d)) (snd ref) in
  increment R (1 / 2) Rplus Rmult ltb isnan ffint d tau dt.

Definition pd_run (k : nat) (kp kd : list R) (dt : R) (refs : list (list R * list R)) (d : device R)
  : outcome (device R) := ofold (pd_tick k kp kd dt) refs d.
End PdLoop.
