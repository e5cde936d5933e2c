(** FeaturePoint6dRelative (src/feature/feature-point6d-relative.cpp).

    Scalars are the reals; poses, jacobians and the external Eigen operations
    are those of Geom_Model and OpPoint_Model.  [g] is the content of an output
    before it is written.  computeErrorDot (lines 183-254) is not modelled: the
    constructor gives errordotSOUT the inherited computeErrordot (line 62-63),
    so no signal ever calls it. *)
From Coq Require Import String List Arith Lia ZArith Bool Reals Lra.
From Verif Require Import Base Flags_Model Feature_Model Geom_Model OpPoint_Model Point6d_Model.
Import ListNotations.
Local Open Scope R_scope.

(** feature-point6d-relative.cpp:130-158: what the reference feature is.  A
    relative feature gives its two positions, any other 6d point its position;
    [None]: reading the signal raises an exception. *)
Inductive ref6 :=
  | RelRef (position positionRef : option hom)
  | PoseRef (position : option hom).

(** feature-point6d-relative.cpp:84-87, 121-127: pMpref. *)
Definition rel6_pMpref (wMp wMpref : hom) : hom := hmul (hinv wMp) wMpref.

(** Difference of two 6-row matrices; Eigen requires the same sizes. *)
Fixpoint jac_sub (a b : jac) : outcome jac :=
  match a, b with
  | [], [] => Ok []
  | x :: a', y :: b' =>
      let* r := jac_sub a' b' in
      Ok ((vsub (fst x) (fst y), vsub (snd x) (snd y)) :: r)
  | _, _ => UB
  end.

(** feature-point6d-relative.cpp:74-110 computeJacobian. *)
Definition rel6_jacobian (g : list R) (fl : Flags) (dim : nat) (wMp wMpref : hom)
  (Jq JqRef : jac) : outcome (list (list R)) :=
  let* J := jac_sub (tjac (buildFrom (rel6_pMpref wMp wMpref)) JqRef) Jq in
  collect fl (fun r => Ok (jrow J r)) 6 (repeat g dim).

(** feature-point6d-relative.cpp:129-158: the pose Merr.  The handler of any
    exception falls back on pMpref. *)
Definition rel6_Merr (wMp wMpref : hom) (ref : option ref6) : hom :=
  let pMpref := rel6_pMpref wMp wMpref in
  match ref with
  | Some (RelRef (Some wMp_des) (Some wMpref_des)) =>
      hmul pMpref (hinv (rel6_pMpref wMp_des wMpref_des))
  | Some (PoseRef (Some Mref)) => hmul pMpref (hinv Mref)
  | Some _ => pMpref
  | None => pMpref
  end.

(** feature-point6d-relative.cpp:115-176 computeError. *)
Definition rel6_error (g : R) (fl : Flags) (dim : nat) (wMp wMpref : hom)
  (ref : option ref6) : outcome (list R) :=
  let Merr := rel6_Merr wMp wMpref ref in
  let rerr := matToAA (lin Merr) in
  let* (cursor, err) :=
    ofold (collect_step R fl (fun i => Ok (v3at (trn Merr) i))) (seq 0 3)
          (0%nat, repeat g dim) in
  let* (_, err') :=
    ofold (collect_step R fl (fun i => Ok (ang rerr * v3at (axis rerr) (i - 3))))
          (seq 3 3) (cursor, err) in
  Ok err'.

(** feature-point6d.cpp:419-474, as bound by feature-point6d-relative.cpp:62-63:
    the published errordot.  [ref]: position and velocity of the reference.
    Recomputing the error here does not touch error_th_, which the relative
    computeError never writes. *)
Definition rel6_errordot (g : R) (p : p6) (fl : Flags) (dim : nat) (wMp : hom)
  (ref : option (hom * list R)) : outcome (list R) :=
  let* e :=
    match ref with
    | Some (Mref, velocity) =>
        let* v := get3 velocity 0 in
        let* omega := get3 velocity 3 in
        Ok (p6_edot p wMp Mref v omega)
    | None => Ok (v0, v0)
    end in
  let* (cursor, err) :=
    ofold (collect_step R fl (fun i => Ok (v3at (fst e) i))) (seq 0 3)
          (0%nat, repeat g dim) in
  let* f3 := at_ fl 3 in
  let* f4 := at_ fl 4 in
  let* f5 := at_ fl 5 in
  if f3 || f4 || f5 then
    let* (_, err') :=
      ofold (collect_step R fl (fun i => Ok (v3at (snd e) (i - 3)))) (seq 3 3)
            (cursor, err) in
    Ok err'
  else Ok err.

(** feature-point6d-relative.cpp:290-303 initSdes: the named feature becomes
    the reference and its positions are frozen to the current ones.  [sdes]:
    the entity of that name if there is one, and whether it is a relative
    feature (the cast to a reference raises otherwise). *)
Definition rel6_initSdes (sdes : option bool) (pos posRef : hom) : outcome (option ref6) :=
  match sdes with
  | None => Throw "POOL"
  | Some false => Throw "bad_cast"
  | Some true => Ok (Some (RelRef (Some pos) (Some posRef)))
  end.
