(** Model of the Kalman filter entity, src/tools/kalman.cpp, include/sot/core/kalman.hh.

    Numbers: an arbitrary real field; rounding is not modelled.  Sizes agree by typing: [n] is the
    size of the state, [m] the size of the measure.  The inverse of a singular innovation covariance
    (garbage in the code) is the outcome [None].

    The two outputs are time-dependent signals (dynamic-graph, outside /repo): the function is called
    only for a time later than the one of the value kept; the value kept is returned otherwise.  That
    the function is always called for a later time supposes that a declared dependency changed
    (see [variance_dependencies] below). *)
From Coq Require Import ZArith String.
From mathcomp Require Import all_ssreflect all_algebra.
Import Order.TTheory GRing.Theory Num.Theory.
Set Implicit Arguments.
Unset Strict Implicit.
Unset Printing Implicit Defensive.
Local Open Scope ring_scope.

Section Kalman.
Variable R : realFieldType.
Variables n m : nat.

(** Values of the input signals at one time: F, H, Q, R, y, x_pred, y_pred (kalman.cpp:28-37). *)
Record kin := mkIn {
  iF : 'M[R]_n; iH : 'M[R]_(m, n); iQ : 'M[R]_n; iR : 'M[R]_m;
  iy : 'cV[R]_m; ixp : 'cV[R]_n; iyp : 'cV[R]_m
}.

(** stateVariance_, stateEstimation_, K_, and the values kept by the two output signals with their
    times (kalman.hh:110-160) *)
Record kalman := mkK {
  kP : 'M[R]_n; kx : 'cV[R]_n; kK : 'M[R]_(n, m);
  kPout : option (nat * 'M[R]_n); kxout : option (nat * 'cV[R]_n)
}.

(** kalman.cpp:70-112, the branch for a time that is not zero: predicted covariance, innovation
    covariance, gain, updated covariance *)
Definition predicted (F Q P : 'M[R]_n) : 'M[R]_n := F *m P *m F^T + Q.
Definition innovation (H : 'M[R]_(m, n)) (Rn : 'M[R]_m) (Pp : 'M[R]_n) : 'M[R]_m := H *m Pp *m H^T + Rn.
Definition gain (H : 'M[R]_(m, n)) (Rn : 'M[R]_m) (Pp : 'M[R]_n) : 'M[R]_(n, m) :=
  Pp *m H^T *m invmx (innovation H Rn Pp).
Definition updated (H : 'M[R]_(m, n)) (Rn : 'M[R]_m) (Pp : 'M[R]_n) : 'M[R]_n :=
  Pp - gain H Rn Pp *m H *m Pp.

(** kalman.cpp:70-112 computeVarianceUpdate *)
Definition varianceUpdate (s : kalman) (t : nat) (i : kin) : option kalman :=
  if t == 0%N then Some (mkK (kP s) (kx s) (kK s) (Some (t, kP s)) (kxout s))
  else
    let Pp := predicted (iF i) (iQ i) (kP s) in
    if innovation (iH i) (iR i) Pp \in unitmx then
      let P' := updated (iH i) (iR i) Pp in
      Some (mkK P' (kx s) (gain (iH i) (iR i) Pp) (Some (t, P')) (kxout s))
    else None.

(** varianceUpdateSOUT.recompute(time) *)
Definition recomputeP (s : kalman) (t : nat) (i : kin) : option kalman :=
  if kPout s is Some (t', _) then if (t <= t')%N then Some s else varianceUpdate s t i
  else varianceUpdate s t i.

(** kalman.cpp:133-171 computeStateUpdate *)
Definition stateUpdate (s : kalman) (t : nat) (i : kin) : option kalman :=
  if t == 0%N then Some (mkK (kP s) (kx s) (kK s) (kPout s) (Some (t, kx s)))
  else
    if recomputeP s t i is Some s1 then
      let x := ixp i + kK s1 *m (iy i - iyp i) in
      Some (mkK (kP s1) x (kK s1) (kPout s1) (Some (t, x)))
    else None.

Definition recomputeX (s : kalman) (t : nat) (i : kin) : option kalman :=
  if kxout s is Some (t', _) then if (t <= t')%N then Some s else stateUpdate s t i
  else stateUpdate s t i.

(** kalman.hh:146-154 setStateVariance, setStateEstimation: the member is set and the signal asked to
    recompute at time zero; the inputs are not read at that time. *)
Definition at_zero {T} (out : option (nat * T)) (v : T) : option (nat * T) :=
  if out is Some _ then out else Some (0%N, v).
Definition setP (s : kalman) (P : 'M[R]_n) : kalman := mkK P (kx s) (kK s) (at_zero (kPout s) P) (kxout s).
Definition setX (s : kalman) (x : 'cV[R]_n) : kalman := mkK (kP s) x (kK s) (kPout s) (at_zero (kxout s) x).

(** A tick of the control loop asks for some of the outputs, in some order, any number of times:
    [true] for P, [false] for x_est. *)
Definition ask (o : option kalman) (ti : nat * kin) (b : bool) : option kalman :=
  if o is Some s then if b then recomputeP s ti.1 ti.2 else recomputeX s ti.1 ti.2 else None.
Definition tick (o : option kalman) (x : (nat * kin) * seq bool) : option kalman :=
  foldl (fun o b => ask o x.1 b) o x.2.
(** From the setters on: members empty, then setInitialState and setInitialVariance. *)
Definition kstart (P : 'M[R]_n) (x : 'cV[R]_n) : kalman :=
  setX (setP (mkK 0 0 0 None None) P) x.
End Kalman.

(** Dependencies declared by the first evaluation at time zero (kalman.cpp:74-77) and signals read at
    the other times (kalman.cpp:79-83). *)
Definition variance_dependencies : seq string := [:: "Q"%string; "F"%string].
Definition variance_reads : seq string := [:: "Q"%string; "R"%string; "F"%string; "H"%string].
