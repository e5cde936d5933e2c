(** The factor update of GripperControl in IEEE arithmetic (src/tools/gripper-control.cpp:118-133). *)
From Coq Require Import List ZArith Bool SpecFloat.
From Verif Require Import Base Float_Facts.
Import ListNotations.

Definition fdiv := SFdiv 53 1024.
Definition fopp := SFopp.

(** gripper-control.cpp:118-133, one coefficient; std::max(a, b) is [a < b ? b : a], std::min(a, b)
    is [b < a ? b : a]. *)
Definition grip_factor1_f64 (offset f torque limit vel : float) : float :=
  let g :=
    if fltb limit torque && fltb f0 vel then fmul f offset
    else if fltb torque (fopp limit) && fltb vel f0 then fmul f offset
    else fdiv f offset in
  let m := if fltb g f0 then f0 else g in
  if fltb m f1 then m else f1.
