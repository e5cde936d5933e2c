(** TimeStamp (src/tools/time-stamp.cpp) and Timer (include/sot/core/timer.hh, src/tools/timer.cpp).

    Doubles are reals rounded to the nearest double, ties to even (Flocq); no stamp reaches the
    largest double, so that overflow is not modelled.  [gettimeofday] gives seconds and microseconds;
    each call to it consumes the next reading of the clock. *)
From Coq Require Import ZArith Reals List Bool.
From Flocq Require Import Core.
From Verif Require Import Base.
Import ListNotations.
Local Open Scope R_scope.

(** IEEE double: rounding to 53 bits, smallest exponent -1074. *)
Definition fl (x : R) : R := round radix2 (FLT_exp (-1074) 53) ZnearestE x.

(** struct timeval *)
Record timeval := TimeVal { tv_sec : Z; tv_usec : Z }.

(** time-stamp.cpp:76-77, the casts to double. *)
Definition dbl (z : Z) : R := fl (IZR z).

Section Stamp.
(** time-stamp.hh:61-62, set at construction (time-stamp.cpp:33-34) and never changed. *)
Record stamp := Stamp { offsetValue : Z; offsetSet : bool; val : timeval }.
Definition stamp_init (now : timeval) : stamp := Stamp 0 false now.

(** time-stamp.cpp:70-80: [now] is what gettimeofday returns. *)
Definition getTimeStamp (s : stamp) (now : timeval) : stamp * list R :=
  (Stamp (offsetValue s) (offsetSet s) now, [dbl (tv_sec now); dbl (tv_usec now)]).

(** time-stamp.cpp:82-93; a vector with less than two entries is read out of bounds. *)
Definition getTimeStampDouble (s : stamp) (vect : list R) : outcome R :=
  match vect with
  | a :: b :: _ =>
      let res := if offsetSet s then fl (fl (a - dbl (offsetValue s)) * 1000) else fl (a * 1000) in
      Ok (fl (res + fl (b / 1000)))
  | _ => UB
  end.

(** The four outputs.  time and timeDouble are plain signals with a function: computed at each
    access (time-stamp.cpp:46-49).  synchro and synchroDouble keep what they computed for a time
    (time-stamp.cpp:37-43, time-stamp.hh:71-73); synchroDouble is computed from time, not from
    synchro. *)
Record outputs := Outputs { once : option (Z * list R); onceDouble : option (Z * R) }.
Definition outputs_init : outputs := Outputs None None.
Inductive access := Time | TimeDouble | Synchro | SynchroDouble.
Inductive reading := Vec (v : list R) | Dbl (x : R).

(** One access at time [t] when the clock gives [now]. *)
Definition read (s : stamp) (o : outputs) (a : access) (t : Z) (now : timeval)
  : outcome (stamp * outputs * reading) :=
  match a with
  | Time => let '(s', v) := getTimeStamp s now in Ok (s', o, Vec v)
  | TimeDouble =>
      let '(s', v) := getTimeStamp s now in
      let* x := getTimeStampDouble s' v in Ok (s', o, Dbl x)
  | Synchro =>
      match once o with
      | Some (t0, v) =>
          if (t <=? t0)%Z then Ok (s, o, Vec v)
          else let '(s', v') := getTimeStamp s now in Ok (s', Outputs (Some (t, v')) (onceDouble o), Vec v')
      | None => let '(s', v') := getTimeStamp s now in Ok (s', Outputs (Some (t, v')) (onceDouble o), Vec v')
      end
  | SynchroDouble =>
      let fresh :=
        let '(s', v) := getTimeStamp s now in
        let* x := getTimeStampDouble s' v in Ok (s', Outputs (once o) (Some (t, x)), Dbl x) in
      match onceDouble o with
      | Some (t0, x) => if (t <=? t0)%Z then Ok (s, o, Dbl x) else fresh
      | None => fresh
      end
  end.

(** A history of accesses: access, time, reading of the clock; the values read. *)
Fixpoint reads (s : stamp) (o : outputs) (h : list (access * Z * timeval)) : outcome (list reading) :=
  match h with
  | [] => Ok []
  | (a, t, now) :: h' =>
      let* r := read s o a t now in
      let '(s', o', x) := r in
      let* l := reads s' o' h' in Ok (x :: l)
  end.
End Stamp.

(** timer.hh:87-118: [t0] and [t1] are read before and after the input is computed, [c0] and [c1]
    the values of clock(); CLOCKS_PER_SEC is 1000000. *)
Definition elapsed_wall (t0 t1 : timeval) : R :=
  fl (fl (fl (dbl (tv_sec t1) - dbl (tv_sec t0)) * 1000)
      + fl (fl (fl (dbl (tv_usec t1) - dbl (tv_usec t0)) + 0) / 1000)).
Definition elapsed_clock (c0 c1 : Z) : R := fl (fl (dbl (c1 - c0) * 1000) / 1000000).

Section Timer.
Variable T : Type.
(** timer.hh:60: dt in milliseconds. *)
Record timer := MkTimer { dt : R }.
Definition timer_init : timer := MkTimer 0.
(** timer.hh:87-118 with the input [sin] (a value or an exception), which takes place between the
    two readings of the clock; timerSOUT is then [dt]. *)
Definition compute (useClock : bool) (tm : timer) (sin : outcome T) (t0 t1 : timeval) (c0 c1 : Z)
  : outcome (timer * T) :=
  let* v := sin in
  Ok (MkTimer (if useClock then elapsed_clock c0 c1 else elapsed_wall t0 t1), v).
(** timer.hh:120-123 *)
Definition getDt (tm : timer) : R := dt tm.
End Timer.
