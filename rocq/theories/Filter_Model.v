(** Filters: FIR filter, causal (rational) filter, derivator, Euler integrator and
    exponential moving average.

    Simplification shared by the file: numbers are reals (no rounding).  Eigen
    expressions of the causal filter, the derivator and the integrator act on the
    coordinates of the signal independently, so the model follows one coordinate. *)
From Coq Require Import String Ascii List Arith Lia ZArith Bool Reals.
From Verif Require Import Base.
Import ListNotations.
Local Open Scope nat_scope.
Local Open Scope list_scope.

(* ------------------------------------------------------------------ *)
(** * FIR filter *)

Section Fir.
Variables (sig coef : Type).
(** [operator+=] on signals, [operator*] coefficient by signal. *)
Variable sadd : sig -> sig -> sig.
Variable smul : coef -> sig -> sig.
(** [reset_signal(res, in)]: the new content of [res].  Generic version:
    include/sot/core/fir-filter.hh 193 leaves [res]; the Vector specialisations of
    src/matrix/fir-filter.cpp 54-66 set it to the zero vector of the size of [in]. *)
Variable reset : sig -> sig -> sig.
(** Value-initialised elements of [std::vector::resize]. *)
Variables (sdef : sig) (cdef : coef).

(** detail::circular_buffer, include/sot/core/fir-filter.hh 31-68 (members 65-67). *)
Record cbuf := mkCbuf { cb_buf : list sig; cb_start : nat; cb_numel : nat }.

(** circular_buffer(), fir-filter.hh 34. *)
Definition cbuf_new : cbuf := mkCbuf [sdef] 0 0.

(** push_front, fir-filter.hh 35-45.  With an empty buffer [buf.size() - 1] wraps to
    the largest size_t and the write is out of bounds; [Nat.pred 0 = 0] is out of
    bounds too, hence UB in both. *)
Definition push_front (b : cbuf) (x : sig) : outcome cbuf :=
  let start := if cb_start b =? 0 then length (cb_buf b) - 1 else cb_start b - 1 in
  let* buf := vset (cb_buf b) start x in
  Ok (mkCbuf buf start (if cb_numel b <? length buf then S (cb_numel b) else cb_numel b)).

(** reset_capacity(n), fir-filter.hh 46-50: old elements are kept but forgotten. *)
Definition reset_capacity (b : cbuf) (n : nat) : cbuf :=
  mkCbuf (vresize (cb_buf b) n sdef) 0 0.

(** operator[], fir-filter.hh 57-61 (release build: the assert is off). *)
Definition cb_get (b : cbuf) (i : nat) : outcome sig :=
  if length (cb_buf b) =? 0 then UB
  else vget (cb_buf b) ((cb_start b + i) mod length (cb_buf b)).

(** FIRFilter members, fir-filter.hh 199-201. *)
Record fir := mkFir { f_coefs : list coef; f_data : cbuf }.

(** Constructor, fir-filter.hh 122-160: no coefficient, default buffer. *)
Definition fir_new : fir := mkFir [] cbuf_new.

(** resizeBuffer (command setSize), fir-filter.hh 177-181. *)
Definition fir_resize (f : fir) (n : nat) : fir :=
  mkFir (vresize (f_coefs f) n cdef) (reset_capacity (f_data f) n).

(** setElement, fir-filter.hh 187-189: unchecked write. *)
Definition fir_set (f : fir) (r : nat) (c : coef) : outcome fir :=
  let* cs := vset (f_coefs f) r c in Ok (mkFir cs (f_data f)).

(** getElement, fir-filter.hh 191: unchecked read. *)
Definition fir_get (f : fir) (r : nat) : outcome coef := vget (f_coefs f) r.

(** compute, fir-filter.hh 164-175.  [res] is the content of the caller's buffer. *)
Definition fir_compute (f : fir) (res x : sig) : outcome (fir * sig) :=
  let res := reset res x in
  let* d := push_front (f_data f) x in
  let* res := ofor_range 0 (Nat.min (cb_numel d) (length (f_coefs f)))
                (fun i r => let* c := vget (f_coefs f) i in
                            let* s := cb_get d i in
                            Ok (sadd r (smul c s))) res in
  Ok (mkFir (f_coefs f) d, res).

(** What a user does with the filter: commands and evaluations of the output. *)
Inductive fir_event :=
| FResize (n : nat)
| FSet (r : nat) (c : coef)
| FSample (res x : sig).

Definition fir_step (s : fir * list sig) (e : fir_event) : outcome (fir * list sig) :=
  let (f, outs) := s in
  match e with
  | FResize n => Ok (fir_resize f n, outs)
  | FSet r c => let* f := fir_set f r c in Ok (f, outs)
  | FSample res x => let* (f, y) := fir_compute f res x in Ok (f, outs ++ [y])
  end.

Definition fir_run (h : list fir_event) : outcome (fir * list sig) :=
  ofold fir_step h (fir_new, []).
End Fir.
Arguments mkCbuf {sig}. Arguments cb_buf {sig}. Arguments cb_start {sig}. Arguments cb_numel {sig}.
Arguments push_front {sig}. Arguments reset_capacity {sig}. Arguments cb_get {sig}.
Arguments cbuf_new {sig}.
Arguments mkFir {sig coef}. Arguments f_coefs {sig coef}. Arguments f_data {sig coef}.
Arguments fir_new {sig coef}. Arguments fir_resize {sig coef}. Arguments fir_set {sig coef}.
Arguments fir_get {sig coef}.
Arguments fir_compute {sig coef}. Arguments FResize {sig coef}. Arguments FSet {sig coef}.
Arguments FSample {sig coef}. Arguments fir_step {sig coef}. Arguments fir_run {sig coef}.

(** src/matrix/fir-filter.cpp 54-66: zero vector of the size of the sample. *)
Definition reset_vector (_ sample : list R) : list R := map (fun _ => 0%R) sample.
(** fir-filter.hh 193. *)
Definition reset_generic {T} (res _ : T) : T := res.

(* ------------------------------------------------------------------ *)
(** * Causal filter *)

Definition rsum (l : list R) : R := fold_right Rplus 0%R l.
Fixpoint dot (a b : list R) : R :=
  match a, b with
  | x :: a, y :: b => (x * y + dot a b)%R
  | _, _ => 0%R
  end.

(** Members of CausalFilter, include/sot/core/causal-filter.hh; one row of the two
    buffers. *)
Record cfilter := mkCF {
  cf_dt : R; cf_num : list R; cf_den : list R; cf_first : bool;
  cf_pn : nat; cf_pd : nat; cf_in : list R; cf_out : list R }.

(** Constructor, src/filters/causal-filter.cpp 36-55. *)
Definition cf_new (dt : R) (num den : list R) : cfilter :=
  mkCF dt num den true 0 0 (repeat 0%R (length num)) (repeat 0%R (length den - 1)).

(** get_x_dx_ddx, causal-filter.cpp 57-104.  An empty numerator or a denominator of
    size below two makes the block expressions of lines 72-81 ill sized: UB. *)
Definition cf_step (f : cfilter) (x : R) : outcome (cfilter * (R * R * R)) :=
  let m := length (cf_num f) in
  let n := length (cf_den f) in
  if (m =? 0) || (n <? 2) then UB else
  (* lines 60-66 *)
  let inb := if cf_first f then repeat x m else cf_in f in
  let outb := if cf_first f
              then repeat (x * rsum (cf_num f) / rsum (cf_den f))%R (n - 1) else cf_out f in
  (* line 68 *)
  let* inb := vset inb (cf_pn f) x in
  (* lines 70-81 *)
  let b := rev (firstn (cf_pn f + 1) (cf_num f)) ++ rev (skipn (cf_pn f + 1) (cf_num f)) in
  let a := rev (firstn (cf_pd f + 1) (skipn 1 (cf_den f)))
             ++ rev (skipn (cf_pd f + 2) (cf_den f)) in
  (* lines 82-83 *)
  let* den0 := vget (cf_den f) 0 in
  let y := ((dot inb b - dot outb a) / den0)%R in
  (* lines 86-95 *)
  let prev := if cf_pd f =? 0 then n - 2 else cf_pd f - 1 in
  let* y1 := vget outb (cf_pd f) in
  let* y2 := vget outb prev in
  let dx := ((y - y1) / cf_dt f)%R in
  let ddx := ((y - 2 * y1 + y2) / cf_dt f / cf_dt f)%R in
  (* lines 97-102 *)
  let pn := if cf_pn f + 1 <? m then cf_pn f + 1 else 0 in
  let pd := if cf_pd f + 1 <? n - 1 then cf_pd f + 1 else 0 in
  let* outb := vset outb pd y in
  Ok (mkCF (cf_dt f) (cf_num f) (cf_den f) false pn pd inb outb, (y, dx, ddx)).

(** switch_filter, causal-filter.cpp 106-134. *)
Definition cf_switch (f : cfilter) (num den : list R) : outcome cfilter :=
  let* cur := vget (cf_in f) (cf_pn f) in
  Ok (mkCF (cf_dt f) num den (cf_first f) 0 0
        (repeat cur (length num))
        (repeat (cur * rsum num / rsum den)%R (length den - 1))).

Inductive cf_event := CSample (x : R) | CSwitch (num den : list R).

Definition cf_ev (s : cfilter * list (R * R * R)) (e : cf_event)
  : outcome (cfilter * list (R * R * R)) :=
  let (f, outs) := s in
  match e with
  | CSample x => let* (f, o) := cf_step f x in Ok (f, outs ++ [o])
  | CSwitch num den => let* f := cf_switch f num den in Ok (f, outs)
  end.

(** FilterDifferentiator: init (src/filters/filter-differentiator.cpp 92-104) builds a
    CausalFilter, the inner signal (120-128) evaluates it once per iteration and the
    three outputs (136-161) are its head, middle and tail. *)
Definition cf_run (dt : R) (num den : list R) (h : list cf_event) :=
  ofold cf_ev h (cf_new dt num den, []).

(* ------------------------------------------------------------------ *)
(** * Derivator *)

(** Members memory, initialized, timestep of include/sot/core/derivator.hh 40-66. *)
Record deriv := mkDeriv { d_mem : R; d_init : bool; d_ts : R }.

(** Constructor, derivator.hh 51-66; TIMESTEP_DEFAULT is 1. *)
Definition deriv_new : deriv := mkDeriv 0 false 1.

(** computeDerivation, derivator.hh 76-90 (and the same on quaternion coefficients,
    94-109). *)
Definition deriv_step (d : deriv) (x : R) : deriv * R :=
  if d_init d then
    let res := (d_mem d * -1)%R in
    let res := (res + x)%R in
    let res := if Req_EM_T (d_ts d) 1 then res else (res * (1 / d_ts d))%R in
    (mkDeriv x true (d_ts d), res)
  else (mkDeriv x true (d_ts d), (x * 0)%R).

(** timestepSIN is a reference on [timestep] (derivator.hh 64): writing the signal
    changes the period for the next evaluations. *)
Inductive deriv_event := DPeriod (ts : R) | DSample (x : R).

Definition deriv_ev (s : deriv * list R) (e : deriv_event) : deriv * list R :=
  let (d, outs) := s in
  match e with
  | DPeriod ts => (mkDeriv (d_mem d) (d_init d) ts, outs)
  | DSample x => let (d, y) := deriv_step d x in (d, outs ++ [y])
  end.

Definition deriv_run (h : list deriv_event) : deriv * list R :=
  fold_left deriv_ev h (deriv_new, []).

(* ------------------------------------------------------------------ *)
(** * Euler integrator *)

(** numerator, denominator (include/sot/core/integrator-abstract.hh 119-121),
    inputMemory, outputMemory, dt, invdt (include/sot/core/integrator-euler.hh 97-103). *)
Record euler := mkEuler {
  e_num : list R; e_den : list R; e_in : list R; e_out : list R; e_dt : R; e_invdt : R }.

(** Constructor, integrator-euler.hh 64-92. *)
Definition euler_new : euler := mkEuler [] [] [] [] (5 / 1000) (1 / (5 / 1000)).

(** pushNumCoef, pushDenomCoef, integrator-abstract.hh 87-90. *)
Definition e_push_num (e : euler) (c : R) : euler :=
  mkEuler (e_num e ++ [c]) (e_den e) (e_in e) (e_out e) (e_dt e) (e_invdt e).
Definition e_push_den (e : euler) (c : R) : euler :=
  mkEuler (e_num e) (e_den e ++ [c]) (e_in e) (e_out e) (e_dt e) (e_invdt e).
(** popNumCoef, popDenomCoef, integrator-abstract.hh 91-92; UB on an empty vector. *)
Definition e_pop_num (e : euler) : outcome euler :=
  if length (e_num e) =? 0 then UB else
  Ok (mkEuler (removelast (e_num e)) (e_den e) (e_in e) (e_out e) (e_dt e) (e_invdt e)).
Definition e_pop_den (e : euler) : outcome euler :=
  if length (e_den e) =? 0 then UB else
  Ok (mkEuler (e_num e) (removelast (e_den e)) (e_in e) (e_out e) (e_dt e) (e_invdt e)).

(** setSamplingPeriod, integrator-euler.hh 164-167. *)
Definition e_set_period (e : euler) (dt : R) : euler :=
  mkEuler (e_num e) (e_den e) (e_in e) (e_out e) dt (1 / dt).

(** initialize, integrator-euler.hh 171-197.  [x] is the current value of the input. *)
Definition e_initialize (e : euler) (x : R) : outcome euler :=
  if (length (e_den e) =? 0) || (length (e_num e) =? 0)
  then Throw "The numerator or the denominator is empty."%string
  else if Req_EM_T (last (e_den e) 0%R) 1 then
    Ok (mkEuler (e_num e) (e_den e) (repeat x (length (e_num e)))
          (repeat x (length (e_den e))) (e_dt e) (e_invdt e))
  else Throw "The coefficient of the highest order derivative of denominator should be 1"%string.

(** integrate, integrator-euler.hh 106-151.  State of the loop of step 2: the input
    memory, tmp1, sum. *)
Definition e_integrate (e : euler) (x : R) : outcome (euler * R) :=
  (* step 1, lines 115-117 *)
  let* tmp1 := vget (e_in e) 0 in
  let* inm := vset (e_in e) 0 x in
  let* b0 := vget (e_num e) 0 in
  let sum := (b0 * x)%R in
  (* step 2, lines 121-128 *)
  let* (inm, tmp1, sum) :=
    ofor_range 1 (length (e_num e))
      (fun i '(inm, tmp1, sum) =>
         let* p := vget inm (i - 1) in
         let tmp2 := ((p - tmp1) * e_invdt e)%R in
         let* tmp1 := vget inm i in
         let* inm := vset inm i tmp2 in
         let* bi := vget (e_num e) i in
         Ok (inm, tmp1, (sum + bi * tmp2)%R)) (inm, tmp1, sum) in
  (* step 3, lines 132-135; an empty denominator gives index -1 in step 4 *)
  if length (e_den e) =? 0 then UB else
  let d := length (e_den e) - 1 in
  let* sum := ofor_range 0 d
                (fun i sum => let* ai := vget (e_den e) i in
                              let* yi := vget (e_out e) i in
                              Ok (sum - ai * yi)%R) sum in
  (* step 4, lines 140-143: i runs from d-1 down to 0 *)
  let* outm := vset (e_out e) d sum in
  let* outm := ofor_range 0 d
                 (fun k outm => let i := d - 1 - k in
                                let* yi := vget outm i in
                                let* yi1 := vget outm (i + 1) in
                                vset outm i (yi + yi1 * e_dt e)%R) outm in
  (* lines 146-147 *)
  let* inm := vset inm 0 x in
  let* res := vget outm 0 in
  Ok (mkEuler (e_num e) (e_den e) inm outm (e_dt e) (e_invdt e), res).

(** derivative, integrator-euler.hh 153-162 (after SOUT has been recomputed). *)
Definition e_derivative (e : euler) : outcome R :=
  if length (e_out e) <? 2 then Throw "Integrator does not compute the derivative."%string
  else vget (e_out e) 1.

Definition e_step (s : euler * list R) (x : R) : outcome (euler * list R) :=
  let (e, outs) := s in
  let* (e, y) := e_integrate e x in Ok (e, outs ++ [y]).

(* ------------------------------------------------------------------ *)
(** * Exponential moving average *)

(** Members average, alpha, init; src/tools/exp-moving-avg.cpp 30-40. *)
Record ema := mkEma { m_avg : list R; m_alpha : R; m_init : bool }.
Definition ema_new : ema := mkEma [] 0 false.

(** setAlpha, exp-moving-avg.cpp 61-64 (release build; the assert tests the previous
    value, not the new one). *)
Definition ema_set_alpha (m : ema) (a : R) : ema := mkEma (m_avg m) a (m_init m).

(** update, exp-moving-avg.cpp 66-79; an input of another size than the average is an
    Eigen size mismatch. *)
Definition ema_update (m : ema) (u : list R) : outcome (ema * list R) :=
  let avg := if m_init m then m_avg m else map (fun _ => 0%R) u in
  if length avg =? length u then
    let r := map (fun '(a, v) => (m_alpha m * a + (1 - m_alpha m) * v)%R) (combine avg u) in
    Ok (mkEma r (m_alpha m) true, r)
  else UB.

Inductive ema_event := MAlpha (a : R) | MUpdate (u : list R).

Definition ema_ev (s : ema * list (list R)) (e : ema_event) : outcome (ema * list (list R)) :=
  let (m, outs) := s in
  match e with
  | MAlpha a => Ok (ema_set_alpha m a, outs)
  | MUpdate u => let* (m, y) := ema_update m u in Ok (m, outs ++ [y])
  end.

Definition ema_run (h : list ema_event) : outcome (ema * list (list R)) :=
  ofold ema_ev h (ema_new, []).
