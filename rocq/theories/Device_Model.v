(** Model of the robot device: src/tools/device.cpp, include/sot/core/device.hh.

    [num] and its operations are parameters: real numbers for the integration laws, IEEE
    binary64 for the bound checks.  [ffint] stands for the free flyer integration
    (integrateRollPitchYaw, device.cpp:40-63: pinocchio's SE3 integration followed by
    Eigen's euler angles): see FreeFly_Model, also for ffPose_.  The periodic calls
    around the integration (device.cpp:418-472) are in DevTick_Model; the force sensor signals
    are not modelled: they do not touch the state.  Messages are not modelled. *)
From Coq Require Import String Ascii List Arith Lia ZArith Bool.
From Verif Require Import Base.
Import ListNotations.

Section Device.
Variable num : Type.
Variables zero half : num.
Variables add mul : num -> num -> num.
Variable ltb : num -> num -> bool.
Variable isnan : num -> bool.
(** New position and roll-pitch-yaw from the old ones, the first six velocities and dt. *)
Variable ffint : list num -> list num -> num -> num * num * num * num * num * num.

(** device.hh:34-39 *)
Inductive cmode := NoInteg | OneInteg | TwoInteg.

(** device.hh:60-78; [stateOut], [velOut]: values of the signals stateSOUT, velocitySOUT. *)
Record device := mkDevice {
  state : list num; velocity : list num; velControl : list num;
  sanity : bool; ctype : cmode;
  upP : list num; upV : list num; upT : list num;
  loP : list num; loV : list num; loT : list num;
  stateOut : list num; velOut : list num
}.

(** device.cpp:73-122 *)
Definition dev_init : device :=
  mkDevice (repeat zero 6) (repeat zero 6) [] true OneInteg [] [] [] [] [] []
    (repeat zero 6) (repeat zero 6).

Definition with_velocity (d : device) (v : list num) : device :=
  mkDevice (state d) v (velControl d) (sanity d) (ctype d)
    (upP d) (upV d) (upT d) (loP d) (loV d) (loT d) (stateOut d) v.
Definition with_state (d : device) (s : list num) : device :=
  mkDevice s (velocity d) (velControl d) (sanity d) (ctype d)
    (upP d) (upV d) (upT d) (loP d) (loV d) (loT d) s (velOut d).
Definition with_mode (d : device) (m : cmode) : device :=
  mkDevice (state d) (velocity d) (velControl d) (sanity d) m
    (upP d) (upV d) (upT d) (loP d) (loV d) (loT d) (stateOut d) (velOut d).

(** device.cpp:220-233 with 235-239 *)
Definition setStateSize (d : device) (n : nat) : outcome device :=
  Ok (with_velocity (with_state d (repeat zero n)) (repeat zero n)).

Definition sizes_ok (n : nat) (lo up : list num) : bool :=
  (n =? length lo) && (n =? length up).

(** device.cpp:241-285 *)
Definition setState (d : device) (st : list num) : outcome device :=
  let s := length st in
  let ok :=
    if sanity d then
      match ctype d with
      | TwoInteg => sizes_ok s (loT d) (upT d) && sizes_ok s (loV d) (upV d)
      | OneInteg => sizes_ok s (loV d) (upV d)
      | NoInteg => true
      end
    else true in
  if ok then Ok (with_state d st) else Throw "invalid_argument".

(** device.cpp:287-290 *)
Definition setVelocity (d : device) (v : list num) : outcome device := Ok (with_velocity d v).

(** device.cpp:292-303: the euler angles [rpy] are written in a copy of the state that has been
    overwritten by the translation [t], of size 3; the copy is then dropped. *)
Definition setRoot (d : device) (t rpy : list num) : outcome device :=
  let q := state d in
  let q := t in
  let* _ := ofor_range 0 3 (fun i q => let* x := vget rpy i in vset q (i + 3) x) q in
  Ok d.

(** device.cpp:305-310 *)
Definition setSecondOrderIntegration (d : device) : outcome device :=
  Ok (with_velocity (with_mode d TwoInteg) (repeat zero (length (state d)))).
(** device.cpp:312-317 *)
Definition setNoIntegration (d : device) : outcome device :=
  Ok (with_velocity (with_mode d NoInteg) (repeat zero (length (state d)))).

(** device.cpp:319-327 with device.hh:41 *)
Definition setControlInputType (d : device) (cit : string) : outcome device :=
  Ok (if String.eqb cit "noInteg" then with_mode d NoInteg
      else if String.eqb cit "oneInteg" then with_mode d OneInteg
      else if String.eqb cit "twoInteg" then with_mode d TwoInteg
      else d).

(** device.cpp:329-363 *)
Definition setSanityCheck (d : device) (b : bool) : outcome device :=
  let s := length (state d) in
  let ok :=
    if b then
      match ctype d with
      | TwoInteg => sizes_ok s (loT d) (upT d) && (sizes_ok s (loV d) (upV d) && sizes_ok s (loP d) (upP d))
      | OneInteg => sizes_ok s (loV d) (upV d) && sizes_ok s (loP d) (upP d)
      | NoInteg => sizes_ok s (loP d) (upP d)
      end
    else true in
  if ok then
    Ok (mkDevice (state d) (velocity d) (velControl d) b (ctype d)
          (upP d) (upV d) (upT d) (loP d) (loV d) (loT d) (stateOut d) (velOut d))
  else Throw "invalid_argument".

(** device.cpp:365-379 *)
Definition setPositionBounds (d : device) (lower upper : list num) : outcome device :=
  if negb (length lower =? length (state d)) then Throw "invalid_argument"
  else if negb (length upper =? length (state d)) then Throw "invalid_argument"
  else Ok (mkDevice (state d) (velocity d) (velControl d) (sanity d) (ctype d)
             upper (upV d) (upT d) lower (loV d) (loT d) (stateOut d) (velOut d)).
(** device.cpp:381-395 *)
Definition setVelocityBounds (d : device) (lower upper : list num) : outcome device :=
  if negb (length lower =? length (velocity d)) then Throw "invalid_argument"
  else if negb (length upper =? length (velocity d)) then Throw "invalid_argument"
  else Ok (mkDevice (state d) (velocity d) (velControl d) (sanity d) (ctype d)
             (upP d) upper (upT d) (loP d) lower (loT d) (stateOut d) (velOut d)).
(** device.cpp:397-412 *)
Definition setTorqueBounds (d : device) (lower upper : list num) : outcome device :=
  if negb (length lower =? length (state d)) then Throw "invalid_argument"
  else if negb (length upper =? length (state d)) then Throw "invalid_argument"
  else Ok (mkDevice (state d) (velocity d) (velControl d) (sanity d) (ctype d)
             (upP d) (upV d) upper (loP d) (loV d) lower (stateOut d) (velOut d)).

(** device.cpp:479-491: new value and whether it was changed. *)
Definition saturateBounds (val lower upper : num) : num * bool :=
  if ltb val lower then (lower, true)
  else if ltb upper val then (upper, true)
  else (val, false).

(** CHECK_BOUNDS, device.cpp:493-502: values and reports. *)
Fixpoint check_bounds (val lower upper : list num) : outcome (list (num * bool)) :=
  match val with
  | [] => Ok []
  | v :: val' =>
      match lower, upper with
      | l :: lower', u :: upper' =>
          let* r := check_bounds val' lower' upper' in
          Ok (saturateBounds v l u :: r)
      | _, _ => UB
      end
  end.

(** Componentwise sum of vectors of the same size, and scaling. *)
Definition vadd (a b : list num) : list num := map (fun p => add (fst p) (snd p)) (combine a b).
Definition vscale (a : list num) (x : num) : list num := map (fun y => mul y x) a.
(** v.tail(n), and assignment to it. *)
Definition tail (v : list num) (n : nat) : outcome (list num) :=
  if n <=? length v then Ok (skipn (length v - n) v) else UB.
Definition set_tail (v t : list num) : outcome (list num) :=
  if length t <=? length v then Ok (firstn (length v - length t) v ++ t) else UB.

(** device.cpp:535-552: the end of integrate, once velocity_ and vel_control_ are known.
    The loop bounds and the sizes are those of the code; with as many velocities as
    positions the first six go through the free flyer integration. *)
Definition check_if (b : bool) (val lower upper : list num) : outcome (list num) :=
  if b then let* r := check_bounds val lower upper in Ok (map fst r) else Ok val.

Definition integrate_position (st vc : list num) (dt : num) : outcome (list num) :=
  if length vc =? length st then
    if length st <? 6 then UB
    else
      let '(a, b, c, r, p, y) := ffint (firstn 6 st) (firstn 6 vc) dt in
      Ok ([a; b; c; r; p; y] ++ vadd (skipn 6 st) (vscale (skipn 6 vc) dt))
  else
    let* t := tail st (length vc) in
    set_tail st (vadd t (vscale vc dt)).

(** device.cpp:504-553 *)
Definition integrate (d : device) (u : list num) (dt : num) : outcome device :=
  if sanity d && existsb isnan u then Ok d
  else
    match ctype d with
    | NoInteg =>
        let* s := set_tail (state d) u in
        Ok (mkDevice s (velocity d) (velControl d) (sanity d) (ctype d)
              (upP d) (upV d) (upT d) (loP d) (loV d) (loT d) (stateOut d) (velOut d))
    | _ =>
        let* (vc, v1) :=
          match ctype d with
          | TwoInteg =>
              let* t := tail (velocity d) (length u) in
              let vc := vadd t (vscale u (mul half dt)) in
              let* v := set_tail (velocity d) (vadd t (vscale u dt)) in
              Ok (vc, v)
          | _ => Ok (u, velocity d)
          end in
        let* v2 := check_if (sanity d) v1 (loV d) (upV d) in
        let* s1 := integrate_position (state d) vc dt in
        let* s2 := check_if (sanity d) s1 (loP d) (upP d) in
        Ok (mkDevice s2 v2 vc (sanity d) (ctype d)
              (upP d) (upV d) (upT d) (loP d) (loV d) (loT d) (stateOut d) (velOut d))
    end.

(** device.cpp:414-476 *)
Definition increment (d : device) (u : list num) (dt : num) : outcome device :=
  let* d1 := integrate d u dt in
  Ok (mkDevice (state d1) (velocity d1) (velControl d1) (sanity d1) (ctype d1)
        (upP d1) (upV d1) (upT d1) (loP d1) (loV d1) (loT d1) (state d1)
        (match ctype d1 with TwoInteg => velocity d1 | OneInteg => u | NoInteg => velOut d1 end)).

(** Commands, for histories; a command that throws leaves the device as it was (every
    check precedes every assignment). *)
Inductive dcmd :=
| DResize (n : nat) | DSet (s : list num) | DSetVelocity (v : list num)
| DSecondOrder | DNoIntegration | DInput (s : string) | DSanity (b : bool)
| DPosB (l u : list num) | DVelB (l u : list num) | DTorB (l u : list num)
| DStep (u : list num) (dt : num).
Definition dexec (d : device) (c : dcmd) : outcome device :=
  match c with
  | DResize n => setStateSize d n
  | DSet s => setState d s
  | DSetVelocity v => setVelocity d v
  | DSecondOrder => setSecondOrderIntegration d
  | DNoIntegration => setNoIntegration d
  | DInput s => setControlInputType d s
  | DSanity b => setSanityCheck d b
  | DPosB l u => setPositionBounds d l u
  | DVelB l u => setVelocityBounds d l u
  | DTorB l u => setTorqueBounds d l u
  | DStep u dt => increment d u dt
  end.
(** A command sent to the device: an exception is reported and the device goes on. *)
Definition dsend (d : device) (c : dcmd) : outcome device :=
  match dexec d c with Throw _ => Ok d | o => o end.
Definition drun (cs : list dcmd) (d : device) : outcome device := ofold dsend cs d.

End Device.
Arguments mkDevice {num}. Arguments state {num}. Arguments velocity {num}. Arguments velControl {num}.
Arguments sanity {num}. Arguments ctype {num}. Arguments upP {num}. Arguments upV {num}. Arguments upT {num}.
Arguments loP {num}. Arguments loV {num}. Arguments loT {num}. Arguments stateOut {num}. Arguments velOut {num}.
Arguments DResize {num}. Arguments DSet {num}. Arguments DSetVelocity {num}. Arguments DSecondOrder {num}.
Arguments DNoIntegration {num}. Arguments DInput {num}. Arguments DSanity {num}. Arguments DPosB {num}.
Arguments DVelB {num}. Arguments DTorB {num}. Arguments DStep {num}.
