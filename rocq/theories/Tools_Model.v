(** Small control entities: SmoothReach, JointLimitator, GripperControl, CoMFreezer,
    GradientAscent, MotionPeriod, NeckLimitation, BinaryIntToUint, ControlPD, ControlGR
    (src/tools, src/control).

    Vectors are lists of reals; a read or write out of range and a size mismatch that Eigen
    asserts are [UB].  Rounding is not modelled here (see Tools_Float for the gripper). *)
From Coq Require Import String List Arith Lia ZArith Bool Reals.
From Verif Require Import Base.
Import ListNotations.
Local Open Scope R_scope.

Definition Rltb (a b : R) : bool := if Rlt_dec a b then true else false.

(** external: coefficient-wise sum, difference and scaling of Eigen vectors; sizes must agree. *)
Definition zipR (f : R -> R -> R) (a b : list R) : outcome (list R) :=
  if (length a =? length b)%nat then Ok (map (fun p => f (fst p) (snd p)) (combine a b)) else UB.
Definition scaleR (k : R) (a : list R) : list R := map (fun x => k * x) a.

(* ------------------------------------------------------------------ *)
(** ** SmoothReach (src/tools/smooth-reach.cpp, include/sot/core/smooth-reach.hh) *)

(** A double as far as SmoothReach can tell: the quotients x, param/x, param/(1-x) may be
    infinite or not a number.  [Fin] values are exact reals. *)
Inductive ext := Fin (r : R) | PInf | MInf | NaN.

(** external: division by a value that may be zero; [neg] is the sign of that zero. *)
Definition ediv (a b : R) (neg : bool) : ext :=
  if Req_EM_T b 0 then
    if Req_EM_T a 0 then NaN
    else if Rltb 0 a then (if neg then MInf else PInf) else (if neg then PInf else MInf)
  else Fin (a / b).
Definition eadd (a b : ext) : ext :=
  match a, b with
  | NaN, _ | _, NaN => NaN
  | PInf, MInf | MInf, PInf => NaN
  | PInf, _ | _, PInf => PInf
  | MInf, _ | _, MInf => MInf
  | Fin x, Fin y => Fin (x + y)
  end.
(** external: std::atan and std::tanh with their limits at infinity. *)
Definition eatan (a : ext) : ext :=
  match a with Fin x => Fin (atan x) | PInf => Fin (PI / 2) | MInf => Fin (- (PI / 2)) | NaN => NaN end.
Definition etanh (a : ext) : ext :=
  match a with Fin x => Fin (tanh x) | PInf => Fin 1 | MInf => Fin (-1) | NaN => NaN end.
Definition emap (f : R -> R) (a : ext) : ext := match a with Fin x => Fin (f x) | _ => a end.

(** smooth-reach.hh:51-55 *)
Record sreach := mkSReach {
  sr_start : list R; sr_goal : list R; sr_startTime : Z; sr_length : Z;
  sr_started : bool; sr_param : bool; sr_mode : Z; sr_beta : R }.

(** smooth-reach.cpp:21-35 *)
Definition sr_init : sreach := mkSReach [] [] (-1) (-1) false true 2 (12 / 10).

(** smooth-reach.cpp:62-79 smoothFunction.  [neg]: x is a negative zero.  M_PI is taken as PI.
    x is finite or NaN here (x > 1 has been cut, so +inf cannot come; -inf only with a null
    duration and a time before the start, where atan/tanh of -param/x + param/(1-x) is 0). *)
Definition smoothFunction (s : sreach) (x : ext) (neg : bool) : ext :=
  match x with
  | Fin v =>
      let y := eadd (ediv (- sr_beta s) v neg) (ediv (sr_beta s) (1 - v) false) in
      if (sr_mode s =? 0)%Z then Fin v
      else if (sr_mode s =? 1)%Z then emap (fun z => z / 2 + 1 / 2) (etanh y)
      else if (sr_mode s =? 2)%Z then emap (fun z => z / PI + 1 / 2) (eatan y)
      else Fin 0
  | MInf =>
      if (sr_mode s =? 0)%Z then MInf
      else if (sr_mode s =? 1)%Z then Fin (1 / 2)
      else if (sr_mode s =? 2)%Z then Fin (1 / 2)
      else Fin 0
  | _ =>
      if (sr_mode s =? 0)%Z || (sr_mode s =? 1)%Z || (sr_mode s =? 2)%Z then NaN else Fin 0
  end.

(** smooth-reach.cpp:81-84 *)
Definition sr_setSmoothing (s : sreach) (mode : Z) (param : R) : sreach :=
  mkSReach (sr_start s) (sr_goal s) (sr_startTime s) (sr_length s) (sr_started s) (sr_param s) mode param.

(** smooth-reach.cpp:110-115 *)
Definition sr_set (s : sreach) (goal : list R) (len : Z) : sreach :=
  mkSReach (sr_start s) goal (sr_startTime s) len (sr_started s) true (sr_mode s) (sr_beta s).

(** smooth-reach.cpp:98-99: double(time - startTime) / lengthTime, cut at 1.  Overflow of the
    subtraction of two ints is not modelled. *)
Definition sr_x (s : sreach) (time : Z) : ext * bool :=
  let d := (time - sr_startTime s)%Z in
  let x := ediv (IZR d) (IZR (sr_length s)) false in
  let x := match x with
           | Fin v => if Rltb 1 v then Fin 1 else Fin v
           | PInf => Fin 1
           | _ => x
           end in
  (x, (sr_length s <? 0)%Z).

(** smooth-reach.cpp:86-108 goalSOUT_function.  [start_now]: value of startSIN at that time;
    [res]: value left by the previous evaluation.  The result is a vector of doubles; a weight
    that is not finite gives [None] (every component is then infinite or not a number). *)
Definition sr_goal_out (s : sreach) (start_now res : list R) (time : Z)
  : outcome (option (list R) * sreach) :=
  let s1 := if sr_param s
            then mkSReach start_now (sr_goal s) time (sr_length s) true false (sr_mode s) (sr_beta s)
            else s in
  if sr_started s1 then
    let (x, neg) := sr_x s1 time in
    match smoothFunction s1 x neg with
    | Fin x1 =>
        let x0 := 1 - x1 in
        let* r := zipR Rplus (scaleR x0 (sr_start s1)) (scaleR x1 (sr_goal s1)) in
        Ok (Some r, s1)
    | _ => if (length (sr_start s1) =? length (sr_goal s1))%nat then Ok (None, s1) else UB
    end
  else Ok (Some res, s1).

(* ------------------------------------------------------------------ *)
(** ** JointLimitator (src/tools/joint-limitator.cpp) *)

(** joint-limitator.cpp:40-55 computeWidthJl *)
Definition jl_width (ujl ljl : list R) : outcome (list R) :=
  ofor_range 0 (length ujl)
    (fun i res => let* u := vget ujl i in let* l := vget ljl i in vset res i (u - l))
    (repeat 0 (length ujl)).

(** joint-limitator.cpp:57-86 computeControl.  With fewer positions than commands the first
    index is negative. *)
Definition jl_control (q ujl ljl uin : list R) : outcome (list R) :=
  if (length q <? length uin)%nat then UB else
  let offset := (length q - length uin)%nat in
  ofor_range 0 (length uin)
    (fun i uout =>
       let* qi := vget q (i + offset) in
       let* u := vget uin i in
       let qnext := qi + u * (5 / 1000) in
       let* keep :=
         if (i + offset <? 6)%nat then Ok true
         else let* up := vget ujl (i + offset) in
              if Rltb qnext up then let* lo := vget ljl (i + offset) in Ok (Rltb lo qnext)
              else Ok false in
       if (keep : bool) then vset uout i u else Ok uout)
    (repeat 0 (length uin)).

(* ------------------------------------------------------------------ *)
(** ** GripperControl (src/tools/gripper-control.cpp) *)

(** gripper-control.hh:58-61; gripper-control.cpp:43,48-49 *)
Record gripper := mkGripper { g_offset : R; g_factor : list R }.
Definition grip_init : gripper := mkGripper (9 / 10) [].

(** gripper-control.cpp:187-192 setOffset *)
Definition grip_setOffset (g : gripper) (v : R) : outcome gripper :=
  if Rltb 0 v && Rltb v 1 then Ok (mkGripper v (g_factor g))
  else Throw "The offset should be in )0, 1(.".

(** gripper-control.cpp:118-133, one coefficient. *)
Definition grip_factor1 (offset f torque limit vel : R) : R :=
  let f1 :=
    if Rltb limit torque && Rltb 0 vel then f * offset
    else if Rltb torque (- limit) && Rltb vel 0 then f * offset
    else f / offset in
  Rmin 1 (Rmax f1 0).

(** gripper-control.cpp:96-135 computeIncrement *)
Definition grip_increment (g : gripper) (torques limits vel : list R) : outcome gripper :=
  let size := length vel in
  let f0 := if (length (g_factor g) =? size)%nat then g_factor g else repeat 1 size in
  if (length torques =? 0)%nat then Ok (mkGripper (g_offset g) f0)
  else
    let* f := ofor_range 0 size
      (fun i f =>
         let* t := vget torques i in
         let* l := vget limits i in
         let* v := vget vel i in
         let* x := vget f i in
         vset f i (grip_factor1 (g_offset g) x t l v)) f0 in
    Ok (mkGripper (g_offset g) f).

(** external: [velocity * factor] with two column vectors (gripper-control.cpp:156) is Eigen's
    matrix product of a size x 1 matrix by a size x 1 matrix: it asserts that the size is 1 (a
    release build computes velocity * factor(0)). *)
Definition colprod (a b : list R) : outcome (list R) :=
  match b with
  | [y] => Ok (map (fun x => x * y) a)
  | _ => UB
  end.

(** gripper-control.cpp:137-164 computeDesiredPosition; DT = 0.005, line 46. *)
Definition grip_reference (g : gripper) (cur des torques limits : list R)
  : outcome (list R * gripper) :=
  let* diff := zipR Rminus des cur in
  let vel := map (fun x => x * (1 / (5 / 1000))) diff in
  let* g1 := grip_increment g torques limits vel in
  let* w := colprod vel (g_factor g1) in
  let* r := zipR Rplus cur (map (fun x => x * (5 / 1000)) w) in
  Ok (r, g1).

(* ------------------------------------------------------------------ *)
(** ** CoMFreezer (src/tools/com-freezer.cpp); the type of the CoM does not matter. *)
Section Freezer.
Variable com : Type.

(** com-freezer.hh; com-freezer.cpp:20-24 *)
Record freezer := mkFreezer { m_lastCoM : com; m_previous : bool; m_lastStopTime : Z }.
Definition fr_init (c0 : com) : freezer := mkFreezer c0 false (-1).

(** com-freezer.cpp:46-79 computeFreezedCoM: inputs are the flag and the CoM at that time. *)
Definition fr_compute (f : freezer) (time : Z) (inProcess : bool) (ref : com) : com * freezer :=
  let f1 :=
    if inProcess then mkFreezer ref (negb inProcess) (m_lastStopTime f)
    else if m_previous f then mkFreezer ref (negb inProcess) time
    else if (time <? m_lastStopTime f + 200)%Z then mkFreezer ref (m_previous f) (m_lastStopTime f)
    else f in
  if (m_lastStopTime f1 <? 0)%Z then (ref, mkFreezer ref (m_previous f1) time)
  else (m_lastCoM f1, f1).
End Freezer.
Arguments mkFreezer {com}. Arguments m_lastCoM {com}. Arguments m_previous {com}.
Arguments m_lastStopTime {com}. Arguments fr_init {com}. Arguments fr_compute {com}.

(* ------------------------------------------------------------------ *)
(** ** GradientAscent (src/tools/gradient-ascent.cpp:54-71) *)
Record gascent := mkGA { ga_init : bool; ga_value : list R }.
Definition ga_start : gascent := mkGA false [].
Definition ga_update (g : gascent) (gradient : list R) (rate : R) : outcome (list R * gascent) :=
  let g1 := if ga_init g then g else mkGA true (map (fun _ => 0) gradient) in
  let* v := zipR Rplus (ga_value g1) (scaleR rate gradient) in
  Ok (v, mkGA true v).

(* ------------------------------------------------------------------ *)
(** ** MotionPeriod (src/tools/motion-period.cpp; motion-period.hh:56-64) *)
Inductive mtype := MOTION_CONSTANT | MOTION_SIN | MOTION_COS.
Record mparam := mkMP {
  p_type : mtype; p_period : Z; p_initPeriod : Z; p_amplitude : R; p_initAmplitude : R }.

(** motion-period.cpp:78-88 resize: vector::resize followed by a reset of every element. *)
Definition mp_resize (n : nat) : list mparam := repeat (mkMP MOTION_CONSTANT 1 0 0 0) n.

(** motion-period.cpp:55-74, one coefficient.  [time - initPeriod] mixes int and unsigned: it is
    computed modulo 2^32; a null period divides by zero.  M_PI is taken as PI. *)
Definition mp_value (p : mparam) (time : Z) : outcome R :=
  if (p_period p =? 0)%Z then UB else
  let k := (((time - p_initPeriod p) mod 2 ^ 32) mod p_period p)%Z in
  let x := IZR k / IZR (p_period p) in
  Ok (match p_type p with
      | MOTION_CONSTANT => p_initAmplitude p + p_amplitude p
      | MOTION_SIN => p_initAmplitude p + p_amplitude p * sin (PI * 2 * x)
      | MOTION_COS => p_initAmplitude p + p_amplitude p * cos (PI * 2 * x)
      end).

(** motion-period.cpp:49-76 computeMotion *)
Definition mp_motion (ps : list mparam) (time : Z) : outcome (list R) :=
  ofor_range 0 (length ps)
    (fun i res => let* p := vget ps i in let* v := mp_value p time in vset res i v)
    (repeat 0 (length ps)).

(* ------------------------------------------------------------------ *)
(** ** NeckLimitation (src/tools/neck-limitation.cpp:22-26,61-134) *)
Record neck := mkNeck {
  n_pan : nat; n_tilt : nat; n_linear : R; n_affine : R; n_sign : R }.
Definition neck_init : neck := mkNeck 14 15 (- 25 / 42) (6981 / 10000) 1.

Definition neck_limit (n : neck) (joint : list R) : outcome (list R) :=
  let* pan := vget joint (n_pan n) in
  let* tilt := vget joint (n_tilt n) in
  let tilt' :=
    if Rltb (Rabs pan) (1 / 1000) then
      if Rltb (n_affine n) (tilt * n_sign n) then n_affine n else tilt
    else if Rltb 0 pan then
      if Rltb (pan * n_linear n + n_affine n) (n_sign n * tilt)
      then pan * n_linear n + n_affine n else tilt
    else
      if Rltb (- pan * n_linear n + n_affine n) (tilt * n_sign n)
      then - pan * n_linear n + n_affine n else tilt in
  let* r := vset joint (n_tilt n) tilt' in
  vset r (n_pan n) pan.

(* ------------------------------------------------------------------ *)
(** ** BinaryIntToUint (src/tools/binary-int-to-uint.cpp:42-54) *)
Definition binary_int_to_uint (x : Z) : Z := if (x <? 0)%Z then 0%Z else 1%Z.

(* ------------------------------------------------------------------ *)
(** ** ControlPD (src/control/control-pd.cpp:82-104): control, position error, velocity error. *)
Definition pd_control (kp kd pos dpos vel dvel : list R)
  : outcome (list R * list R * list R) :=
  let* pe := zipR Rminus dpos pos in
  let* ve := zipR Rminus dvel vel in
  let* a := zipR Rmult pe kp in
  let* b := zipR Rmult ve kd in
  let* tau := zipR Rplus a b in
  Ok (tau, pe, ve).

(** ** ControlGR (src/control/control-gr.cpp:77-115); the matrix is the list of its rows. *)
Fixpoint dotR (a b : list R) : R :=
  match a, b with x :: a', y :: b' => x * y + dotR a' b' | _, _ => 0 end.
Definition gr_control (A : list (list R)) (acc gravity : list R) : outcome (list R) :=
  if forallb (fun r => (length r =? length acc)%nat) A
  then zipR Rplus (map (fun r => dotR r acc) A) gravity
  else UB.
