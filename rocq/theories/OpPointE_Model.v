(** The entity OpPointModifier with its commands and its two output signals (src/math/op-point-modifier.cpp:27-134,
    include/sot/core/op-point-modifier.hh). The two functions are those of OpPoint_Model. Assumption on the library: the
    inputs have a new value at each time, so an output is computed when it is read at a time after its last computation,
    and handed out again otherwise. *)
From Coq Require Import String List Arith Lia ZArith Bool Reals.
From Verif Require Import Base Geom_Model OpPoint_Model.
Import ListNotations.

(** op-point-modifier.hh: the attributes; [None]: the coefficients of the default transformation are not initialised
    (op-point-modifier.cpp:46). The outputs with the time of their last computation. *)
Record ope := Ope { oe_tr : option hom; oe_end : bool; oe_jac : option (Z * jac); oe_pos : option (Z * hom) }.
(** op-point-modifier.cpp:27-47 *)
Definition ope_new : ope := Ope None true None None.

(** The commands (op-point-modifier.cpp:54-72) and the reads of the two outputs. *)
Inductive ocmd := OSetTr (m : hom) | OSetEnd (b : bool) | OGetTr | OGetEnd | OJacobian (t : Z) | OPosition (t : Z).
Inductive oresult := RNone | RHom (m : hom) | RBool (b : bool) | RJac (j : jac).

(** op-point-modifier.cpp:77-134: the functions of the outputs read the transformation, undefined when nothing was set *)
Definition ope_step (jin : Z -> jac) (pin : Z -> hom) (o : ope) (c : ocmd) : outcome (oresult * ope) :=
  let attr := match oe_tr o with Some m => Ok (mkOpm m (oe_end o)) | None => UB end in
  match c with
  | OSetTr m => Ok (RNone, Ope (Some m) (oe_end o) (oe_jac o) (oe_pos o))
  | OSetEnd b => Ok (RNone, Ope (oe_tr o) b (oe_jac o) (oe_pos o))
  | OGetTr => match oe_tr o with Some m => Ok (RHom m, o) | None => UB end
  | OGetEnd => Ok (RBool (oe_end o), o)
  | OJacobian t =>
      match oe_jac o with
      | Some (u, j) => if (u <? t)%Z then let* a := attr in let r := opm_jacobian a (pin t) (jin t) in Ok (RJac r, Ope (oe_tr o) (oe_end o) (Some (t, r)) (oe_pos o))
                       else Ok (RJac j, o)
      | None => let* a := attr in let r := opm_jacobian a (pin t) (jin t) in Ok (RJac r, Ope (oe_tr o) (oe_end o) (Some (t, r)) (oe_pos o))
      end
  | OPosition t =>
      match oe_pos o with
      | Some (u, p) => if (u <? t)%Z then let* a := attr in let r := opm_position a (pin t) in Ok (RHom r, Ope (oe_tr o) (oe_end o) (oe_jac o) (Some (t, r)))
                       else Ok (RHom p, o)
      | None => let* a := attr in let r := opm_position a (pin t) in Ok (RHom r, Ope (oe_tr o) (oe_end o) (oe_jac o) (Some (t, r)))
      end
  end.
Definition ope_run (jin : Z -> jac) (pin : Z -> hom) (l : list ocmd) : outcome ope :=
  ofold (fun o c => let* (_, o') := ope_step jin pin o c in Ok o') l ope_new.
