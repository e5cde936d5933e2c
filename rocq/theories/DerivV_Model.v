(** The derivator on vectors, read through its output signal (include/sot/core/derivator.hh:40-90); the specialisation to
    quaternions (92-109) does the same on four coefficients. Matrices are vectors of their coefficients. Real numbers for
    doubles. Assumption on the library: the input has a new value at each time, so the output is computed when it is
    read at a time after its last computation, and handed out again otherwise. *)
From Coq Require Import String List Arith Lia ZArith Bool Reals.
From Verif Require Import Base FiltDiff_Model.
Import ListNotations.
Local Open Scope nat_scope.

(** derivator.hh:43-46 memory, initialized, timestep; time and value of SOUT *)
Record dvec := DV { dv_mem : list R; dv_init : bool; dv_ts : R; dv_out : option (Z * list R) }.
(** derivator.hh:51-66; the memory is an empty vector *)
Definition dv_new : dvec := DV [] false 1 None.

(** derivator.hh:76-90 computeDerivation: the sum of vectors of two sizes is undefined *)
Definition dv_compute (d : dvec) (x : list R) : outcome (dvec * list R) :=
  if dv_init d then
    let res := map (fun a => a * -1)%R (dv_mem d) in
    if (length res =? length x) then
      let res := zipw Rplus res x in
      let res := if Req_EM_T (dv_ts d) 1 then res else map (fun a => a * (1 / dv_ts d))%R res in
      Ok (DV x true (dv_ts d) (dv_out d), res)
    else UB
  else Ok (DV x true (dv_ts d) (dv_out d), map (fun a => a * 0)%R x).
Definition dv_read (input : Z -> list R) (d : dvec) (t : Z) : outcome (dvec * list R) :=
  let go := let* (d', r) := dv_compute d (input t) in Ok (DV (dv_mem d') (dv_init d') (dv_ts d') (Some (t, r)), r) in
  match dv_out d with
  | Some (u, r) => if (u <? t)%Z then go else Ok (d, r)
  | None => go
  end.
(** derivator.hh:64-65: writing the signal dt writes the period *)
Inductive daction := DRead (t : Z) | DSetPeriod (ts : R).
Fixpoint dv_run (input : Z -> list R) (d : dvec) (l : list daction) : outcome (dvec * list (list R)) :=
  match l with
  | [] => Ok (d, [])
  | DRead t :: r => let* (d1, v) := dv_read input d t in let* (d2, vs) := dv_run input d1 r in Ok (d2, v :: vs)
  | DSetPeriod ts :: r => dv_run input (DV (dv_mem d) (dv_init d) ts (dv_out d)) r
  end.
