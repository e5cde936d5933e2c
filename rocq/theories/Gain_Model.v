(** Model of the gains: src/task/gain-adaptive.cpp, src/task/gain-hyperbolic.cpp and their
    headers.  Numbers are reals: rounding is not modelled. *)
From Coq Require Import List Reals Lra.
Import ListNotations.
Local Open Scope R_scope.

(** Eigen's [norm()] of a vector. *)
Definition norm (e : list R) : R := sqrt (fold_right (fun x s => x * x + s) 0 e).

(** ** GainAdaptive *)

(** gain-adaptive.hh:67-69; the constructors start from zeros (gain-adaptive.cpp:36). *)
Record adaptive := mkA { a_a : R; a_b : R; a_c : R }.

(** gain-adaptive.cpp:103-114 *)
Definition a_init (valueAt0 valueAtInfty tanAt0 : R) : adaptive :=
  let a := valueAt0 - valueAtInfty in
  mkA a (if Req_EM_T 0 a then 0 else tanAt0 / a) valueAtInfty.
(** gain-adaptive.hh:80 *)
Definition a_init1 (lambda : R) : adaptive := a_init lambda lambda 1.
(** gain-adaptive.hh:79 with the defaults gain-adaptive.cpp:27-29 *)
Definition a_init0 : adaptive := a_init (1 / 10) (1 / 10) 1.
(** gain-adaptive.cpp:133-146 *)
Definition a_initFromPassingPoint (valueAt0 valueAtInfty xref p : R) : adaptive :=
  let a := valueAt0 - valueAtInfty in
  mkA a (if Req_EM_T 0 a then 0 else -1 / xref * ln p) valueAtInfty.
(** gain-adaptive.cpp:148 *)
Definition a_forceConstant (g : adaptive) : adaptive := mkA 0 (a_b g) (a_c g).
(** gain-adaptive.cpp:166-174 *)
Definition a_computeGain (g : adaptive) (error : list R) : R :=
  a_a g * exp (- a_b g * norm error) + a_c g.

(** Commands: gain-adaptive.cpp:43-78 and the public method forceConstant. *)
Inductive acmd :=
| ASet (v0 vinf tan : R) | ASetConstant (lambda : R)
| ASetByPoint (v0 vinf xref p : R) | AForceConstant.
Definition a_exec (g : adaptive) (c : acmd) : adaptive :=
  match c with
  | ASet v0 vinf tan => a_init v0 vinf tan
  | ASetConstant l => a_init1 l
  | ASetByPoint v0 vinf x p => a_initFromPassingPoint v0 vinf x p
  | AForceConstant => a_forceConstant g
  end.

(** ** GainHyperbolic *)
Record hyperbolic := mkH { h_a : R; h_b : R; h_c : R; h_d : R }.
(** gain-hyperbolic.cpp:62-74 *)
Definition h_init (valueAt0 valueAtInfty tanAt0 decal0 : R) : hyperbolic :=
  let a := valueAt0 - valueAtInfty in
  mkH a (if Req_EM_T 0 a then 0 else tanAt0 / a / 2) valueAtInfty decal0.
(** gain-hyperbolic.hh: init(lambda) *)
Definition h_init1 (lambda : R) : hyperbolic := h_init lambda lambda 1 0.
(** gain-hyperbolic.cpp:76 *)
Definition h_forceConstant (g : hyperbolic) : hyperbolic := mkH 0 (h_b g) (h_c g) (h_d g).
(** gain-hyperbolic.cpp:96-104 *)
Definition h_computeGain (g : hyperbolic) (error : list R) : R :=
  h_a g * (1 / 2) * (tanh (- h_b g * (norm error - h_d g)) + 1) + h_c g.
