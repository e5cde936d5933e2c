(** The control loop closed on posture tasks: FeaturePosture -> Task -> SOT -> Device.

    At each tick the application reads the control of the stack, which reads the tasks, which read
    their features, which read the configuration of the device, and gives it to Device::increment
    (src/tools/device.cpp:414-476).  The parts are the models of Feature_Model, Task_Model,
    Solver_Model and Device_Model over a real field; this file only connects them.

    [g] is the content of uninitialised memory, [ffint] the integration of the free flyer
    (FreeFly_Model).  Signals are recomputed at every tick (C108). *)
From Coq Require Import ZArith String List.
From Verif Require Import Base Flags_Model Bound_Model Solver_Model.
From Verif Require Feature_Model Task_Model Device_Model.
From mathcomp Require Import all_ssreflect all_algebra.
Import Order.TTheory GRing.Theory Num.Theory.
Set Implicit Arguments.
Unset Strict Implicit.
Unset Printing Implicit Defensive.
Local Open Scope ring_scope.

Section Closed.
Variable R : realFieldType.
Variable g : R.
Variable ffint : list R -> list R -> R -> R * R * R * R * R * R.
(** Number of joints given to the stack (sot.hh: nbJoints). *)
Variable n : nat.

(** A Task with one FeaturePosture (task.cpp, feature-posture.cpp): feature, value of the signal
    controlGain as a function of the error of the task (a constant, or the signal gain of a gain
    entity whose input error is the error of the task, as gotoNd does), withDerivative,
    controlSelec, and size of the work vector of the stack for this task. *)
Record ptask := PTask {
  feature : Feature_Model.posture R;
  gain : list R -> R;
  withDerivative : bool;
  selec : Flags;
  memory : nat
}.
(** The inputs posture and postureDot of the feature. *)
Record inputs := Inputs { posture_in : list R; postureDot_in : list R }.

(** feature-posture.cpp:99-103: the jacobian, a matrix with as many columns as the state. *)
Definition posture_jacobian (p : Feature_Model.posture R) (c : nat) : Task_Model.mat R :=
  Task_Model.mkMat (length (Feature_Model.pjac p)) c
    (fun i j => List.nth j (List.nth i (Feature_Model.pjac p) nil) 0).

(** sot.cpp:458-467 *)
Fixpoint taskVectorToMlVector (v : list (MultiBound R)) : outcome (list R) :=
  match v with
  | nil => Ok nil
  | b :: r => let* x := getSingleBound b in let* l := taskVectorToMlVector r in Ok (x :: l)
  end.

(** sot.cpp:523-548: what the solver reads from the task when the configuration is [q].  [be], [bj]
    are what the signals error and jacobian of the task held before.  A jacobian of another size
    than announced is asserted at sot.cpp:564. *)
Definition read_task (be : list R) (bj : Task_Model.mat R) (t : ptask) (q : list R) (s : inputs)
  : outcome (task R n) :=
  let* e := Feature_Model.posture_error R g (fun a b => a - b) (feature t) q (posture_in s) in
  let* err := Task_Model.computeError R 0 g be (e :: nil) in
  let* de := (if withDerivative t then
                let* d := Feature_Model.posture_errordot R g (fun a => - a) (feature t) (postureDot_in s) in
                Task_Model.computeErrorTimeDerivative R g err (d :: nil)
              else Ok nil) in
  let* r := Task_Model.computeTaskExponentialDecrease R 0 (fun a => - a) (fun a b => a - b)
              (fun a b => a * b) err (gain t err) (withDerivative t) de in
  let* J := Task_Model.computeJacobian R g bj (posture_jacobian (feature t) (length q) :: nil) in
  let* v := taskVectorToMlVector r in
  if (Task_Model.rows J == length v) && (Task_Model.cols J == n) then
    Ok (@mkTask R n (length v)
          (\matrix_(i, j) Task_Model.coef J i j) (\col_i List.nth i v 0)
          (Some (selec t)) true (memory t))
  else UB.

(** The jacobian signal was never computed, or held a jacobian of this robot (C17). *)
Definition buffer_ok (bj : Task_Model.mat R) : Prop :=
  (Task_Model.rows bj = 0%N /\ Task_Model.cols bj = 0%N) \/ Task_Model.cols bj = n.

(** The coefficients of the control, as the device receives them. *)
Definition coefs (u : 'cV[R]_n) : list R := [seq u i 0 | i <- enum 'I_n].

(** device.cpp:414-476 over the field. *)
Definition device_increment :=
  Device_Model.increment R (2%:R^-1) (fun a b => a + b) (fun a b => a * b) (fun a b => a < b)
    (fun _ => false) ffint.

(** One tick: the posture tasks [ps] have the highest priorities, [others] follow.  The shortcut for
    posture tasks is off (its default, sot.cpp:66). *)
Inductive tick (th lim dt : R) (ps : list (ptask * inputs)) (others : list (task R n))
    (d d' : Device_Model.device R) : Prop :=
| Tick ts u :
    Forall2 (fun p t => exists be bj, buffer_ok bj /\
               read_task be bj (fst p) (Device_Model.state d) (snd p) = Ok t) ps ts ->
    computeControlLaw th lim false None None (ts ++ others) (Ok u) ->
    device_increment d (coefs u) dt = Ok d' ->
    tick th lim dt ps others d d'.

End Closed.
