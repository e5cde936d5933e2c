(** One step of the device with what it calls: Device::increment (src/tools/device.cpp:414-476) with the periodic calls made before and
    after it (src/tools/periodic-call.cpp), the control signal, and the times of the published signals.

    The integration is Device_Model.increment and the lists of calls are those of Sched_Model; this file connects them.  A step leaves
    a trace: the calls, the reading of the control and the publication of the state, in order.  What a called signal does is outside
    the model, except that it may raise.  Not modelled: the values of the forces and of the ZMP (constants), messages. *)
From Coq Require Import String List Arith ZArith Bool.
From Verif Require Import Base SMap Sched_Model.
From Verif Require Device_Model.
Import ListNotations.
Local Open Scope Z_scope.

Section DevTick.
Variable num : Type.
Variables zero half : num.
Variables add mul : num -> num -> num.
Variable ltb : num -> num -> bool.
Variable isnan : num -> bool.
Variable ffint : list num -> list num -> num -> num * num * num * num * num * num.
(** Device::integrate with the publication of the state and of the velocity; the commands of the device. *)
Definition integrate_publish := Device_Model.increment num half add mul ltb isnan ffint.
Definition command := Device_Model.dexec num zero half add mul ltb isnan ffint.

Inductive ev :=
| EBefore (name : string) (t : Z)          (* a periodic call made before the control, for a time *)
| EControl (t : Z)                         (* the control signal is read, at a time *)
| EState (t : Z) (s : list num)            (* the state is published, with a time *)
| EAfter (name : string) (t : Z)           (* a periodic call made after the publication *)
| EMotor (s : list num).                   (* the motor control is published *)

(** device.hh:60-78: the device, the time of stateSOUT, the two lists of calls. *)
Record dtick := DTick { dk_dev : Device_Model.device num; dk_time : Z; dk_before : PeriodicCall; dk_after : PeriodicCall }.

(** periodic-call.cpp:74-81 runSignals, for signals that may raise: the names called, in order.  An exception leaves the loop and
    is caught by the device (device.cpp:420-431, 461-472).  A null factor is a division by zero. *)
Fixpoint run_calls (raises : string -> bool) (p : PeriodicCall) (t : Z) : outcome (list string) :=
  match p with
  | [] => Ok []
  | (nm, c) :: r =>
      if factor c =? 0 then UB
      else if to_unsigned t mod factor c =? 0 then
        if raises nm then Ok [nm] else let* rest := run_calls raises r t in Ok (nm :: rest)
      else run_calls raises r t
  end.

(** device.cpp:414-476.  [u] is what reading the control signal gives; [rb], [ra]: which calls raise.  An exception of the control or
    of the integration leaves the function: the time is not advanced.  The time is an int. *)
Definition dk_increment (s : dtick) (u : outcome (list num)) (dt : num) (rb ra : string -> bool)
  : outcome (dtick * option string * list ev) :=
  let t := dk_time s in
  if t =? int_max then UB else
  let* nb := run_calls rb (dk_before s) (t + 1) in
  let before := map (fun n => EBefore n (t + 1)) nb in
  match u with
  | UB => UB
  | Throw e => Ok (s, Some e, before ++ [EControl t])
  | Ok v =>
      match integrate_publish (dk_dev s) v dt with
      | UB => UB
      | Throw e => Ok (s, Some e, before ++ [EControl t])
      | Ok d =>
          let* na := run_calls ra (dk_after s) (t + 1) in
          Ok (DTick d (t + 1) (dk_before s) (dk_after s), None,
              before ++ [EControl t; EState (t + 1) (Device_Model.stateOut d)] ++
              map (fun n => EAfter n (t + 1)) na ++ [EMotor (Device_Model.state d)])
      end
  end.

(** What is done to a device: a command, a change of one of the lists of calls (the trigger commands of [pcall] are those of the
    PeriodicCall entity, not of these lists), a step. *)
Inductive kcmd :=
| KDev (c : Device_Model.dcmd num)
| KBefore (c : pcall) | KAfter (c : pcall)
| KInc (u : outcome (list num)) (dt : num) (rb ra : string -> bool).
Definition dk_step (s : dtick) (c : kcmd) : outcome (dtick * list ev) :=
  match c with
  | KDev (Device_Model.DStep _ _) => Ok (s, [])   (* not a command: steps are [KInc] *)
  | KDev c =>
      match command (dk_dev s) c with
      | Ok d => Ok (DTick d (dk_time s) (dk_before s) (dk_after s), [])
      | Throw _ => Ok (s, [])
      | UB => UB
      end
  | KBefore c => Ok (DTick (dk_dev s) (dk_time s) (pc_step (dk_before s) c) (dk_after s), [])
  | KAfter c => Ok (DTick (dk_dev s) (dk_time s) (dk_before s) (pc_step (dk_after s) c), [])
  | KInc u dt rb ra => let* (s', _, l) := dk_increment s u dt rb ra in Ok (s', l)
  end.
(** A history: the state reached and the whole trace. *)
Definition dk_run (h : list kcmd) (s : dtick) : outcome (dtick * list ev) :=
  ofold (fun st c => let* (s', l) := dk_step (fst st) c in Ok (s', snd st ++ l)) h (s, []).
End DevTick.
Arguments EBefore {num}. Arguments EControl {num}. Arguments EState {num}. Arguments EAfter {num}. Arguments EMotor {num}.
Arguments DTick {num}. Arguments dk_dev {num}. Arguments dk_time {num}. Arguments dk_before {num}. Arguments dk_after {num}.
Arguments KDev {num}. Arguments KBefore {num}. Arguments KAfter {num}. Arguments KInc {num}.
