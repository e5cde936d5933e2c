(** Stop watch (src/utils/stop-watch.cpp). Times are real numbers (rounding of long double not modelled). *)
From Coq Require Import String List Arith Lia ZArith Bool Reals Lra.
From Verif Require Import Base SMap.
Import ListNotations.
Local Open Scope R_scope.

(** include/sot/core/stop-watch.hh:47-51 *)
Inductive wmode := MNone | MCpu | MReal.
(** Values of clock() and of the time of day when a command is executed. *)
Record tick := mkTick { t_cpu : R; t_real : R }.
Definition CLOCKS_PER_SEC : R := 1000000.
(** include/sot/core/stop-watch.hh:206-238 PerformanceData; the field paused is never read *)
Record perf := mkPerf { w_start : R; w_total : R; w_min : R; w_max : R; w_last : R; w_stops : nat }.
Definition perf0 : perf := mkPerf 0 0 0 0 0 0.
Record watch := mkWatch { w_active : bool; w_mode : wmode; w_recs : list (string * perf) }.
(** src/utils/stop-watch.cpp:51-53 *)
Definition w_new (m : wmode) : watch := mkWatch true m [].
Definition set_recs (w : watch) r := mkWatch (w_active w) (w_mode w) r.

(** src/utils/stop-watch.cpp:63-103 take_time *)
Definition take_time (w : watch) (t : tick) : outcome R :=
  match w_mode w with
  | MCpu => Ok (t_cpu t) | MReal => Ok (t_real t)
  | MNone => Throw "Clock not initialized to a time taking mode!"
  end.
Definition not_init {A} : outcome A := Throw "Performance not initialized.".

(** src/utils/stop-watch.cpp:105-121 start: the record is inserted before the clock is read *)
Definition start (w : watch) (n : string) (t : tick) : watch * outcome unit :=
  if negb (w_active w) then (w, Ok tt)
  else
    let p := match mfind scmp (w_recs w) n with Some p => p | None => perf0 end in
    let w1 := set_recs w (mset scmp (w_recs w) n p) in
    match take_time w t with
    | Ok c => (set_recs w (mset scmp (w_recs w) n (mkPerf c (w_total p) (w_min p) (w_max p) (w_last p) (w_stops p))), Ok tt)
    | Throw e => (w1, Throw e)
    | UB => (w1, UB)
    end.

(** src/utils/stop-watch.cpp:123-152 stop *)
Definition lapse (m : wmode) (c0 c : R) : R := match m with MCpu => (c - c0) / CLOCKS_PER_SEC | _ => c - c0 end.
Definition record_lap (p : perf) (l : R) : perf :=
  mkPerf (w_start p) (w_total p + l)
    (if Rle_dec l (w_min p) then l else if Req_EM_T (w_min p) 0 then l else w_min p)
    (if Rle_dec (w_max p) l then l else w_max p)
    l (S (w_stops p)).
Definition stop (w : watch) (n : string) (t : tick) : watch * outcome unit :=
  if negb (w_active w) then (w, Ok tt)
  else
    match take_time w t with
    | Ok c =>
        match mfind scmp (w_recs w) n with
        | None => (w, not_init)
        | Some p =>
            if Req_EM_T (w_start p) 0 then (w, Ok tt)
            else (set_recs w (mset scmp (w_recs w) n (record_lap p (lapse (w_mode w) (w_start p) c))), Ok tt)
        end
    | Throw e => (w, Throw e)
    | UB => (w, UB)
    end.

(** src/utils/stop-watch.cpp:154-173 pause: clock() is read whatever the mode *)
Definition pause (w : watch) (n : string) (t : tick) : watch * outcome unit :=
  if negb (w_active w) then (w, Ok tt)
  else
    match mfind scmp (w_recs w) n with
    | None => (w, not_init)
    | Some p =>
        if Req_EM_T (w_start p) 0 then (w, Ok tt)
        else
          let l := t_cpu t - w_start p in
          (set_recs w (mset scmp (w_recs w) n (mkPerf (w_start p) (w_total p + l) (w_min p) (w_max p) (w_last p + l) (w_stops p))), Ok tt)
    end.

(** src/utils/stop-watch.cpp:196-212 reset, 175-183 reset_all *)
Definition reset (w : watch) (n : string) : watch * outcome unit :=
  if negb (w_active w) then (w, Ok tt)
  else
    match mfind scmp (w_recs w) n with
    | None => (w, not_init)
    | Some _ => (set_recs w (mset scmp (w_recs w) n perf0), Ok tt)
    end.
Definition reset_all (w : watch) : watch * outcome unit :=
  if negb (w_active w) then (w, Ok tt)
  else (fold_left (fun w n => fst (reset w n)) (map fst (w_recs w)) w, Ok tt).

(** src/utils/stop-watch.cpp:214-222 turn_on, turn_off; 57 set_mode *)
Definition turn (w : watch) (b : bool) : watch := mkWatch b (w_mode w) (w_recs w).
Definition set_mode (w : watch) (m : wmode) : watch := mkWatch (w_active w) m (w_recs w).

(** src/utils/stop-watch.cpp:265-312 getters; an average over no measure is a division by zero ([None]) *)
Definition getter {A} (f : perf -> A) (w : watch) (n : string) : outcome A :=
  match mfind scmp (w_recs w) n with None => not_init | Some p => Ok (f p) end.
Definition get_total := getter w_total.
Definition get_min := getter w_min.
Definition get_max := getter w_max.
Definition get_last := getter w_last.
Definition get_average := getter (fun p => if (w_stops p =? 0)%nat then None else Some (w_total p / INR (w_stops p))).
(** src/utils/stop-watch.cpp:252-263 *)
Definition time_so_far (w : watch) (n : string) (t : tick) : outcome R :=
  match mfind scmp (w_recs w) n with
  | None => not_init
  | Some p => let* c := take_time w t in Ok (lapse (w_mode w) (w_start p) c)
  end.

Inductive wcmd := WStart (n : string) (t : tick) | WStop (n : string) (t : tick) | WPause (n : string) (t : tick)
  | WReset (n : string) | WResetAll | WTurn (b : bool) | WMode (m : wmode).
Definition wexec (w : watch) (c : wcmd) : watch :=
  match c with
  | WStart n t => fst (start w n t) | WStop n t => fst (stop w n t) | WPause n t => fst (pause w n t)
  | WReset n => fst (reset w n) | WResetAll => fst (reset_all w) | WTurn b => turn w b | WMode m => set_mode w m
  end.
