(** The registered Euler integrators (include/sot/core/integrator-abstract.hh,
    include/sot/core/integrator-euler.hh, src/matrix/integrator-euler.t.cpp 43-48): signals and
    coefficients are double and double, Vector and double, Vector and Matrix.  Doubles are reals;
    the first class is modelled in Filter_Model.v.
    An Eigen operation on operands of different sizes is [UB]. *)
From Coq Require Import String List Arith Lia Bool Reals Lra.
From Verif Require Import Base.
Import ListNotations.

Section Euler.
(** The template parameters sigT and coefT, with the operations the code uses on them. *)
Variables sig coef : Type.
Variables (add sub : sig -> sig -> outcome sig).      (* a + b, a - b *)
Variable scale : sig -> R -> sig.                     (* a * r *)
Variable mul : coef -> sig -> outcome sig.            (* c * a *)
Variable is_identity : coef -> bool.                  (* integratorEulerCoeffIsIdentity *)

(** integrator-abstract.hh 119-121, integrator-euler.hh 97-103 *)
Record integ := Integ { num : list coef; den : list coef; inm : list sig; outm : list sig; dt : R; invdt : R }.
(** integrator-euler.hh 64-92 *)
Definition integ_new : integ := Integ [] [] [] [] (5 / 1000) (1 / (5 / 1000)).
(** integrator-abstract.hh 87-92; pop_back of an empty vector is undefined. *)
Definition pushNumCoef (e : integ) (c : coef) : integ := Integ (num e ++ [c]) (den e) (inm e) (outm e) (dt e) (invdt e).
Definition pushDenomCoef (e : integ) (c : coef) : integ := Integ (num e) (den e ++ [c]) (inm e) (outm e) (dt e) (invdt e).
Definition popNumCoef (e : integ) : outcome integ :=
  if length (num e) =? 0 then UB else Ok (Integ (removelast (num e)) (den e) (inm e) (outm e) (dt e) (invdt e)).
Definition popDenomCoef (e : integ) : outcome integ :=
  if length (den e) =? 0 then UB else Ok (Integ (num e) (removelast (den e)) (inm e) (outm e) (dt e) (invdt e)).
(** integrator-euler.hh 164-167 *)
Definition setSamplingPeriod (e : integ) (p : R) : integ := Integ (num e) (den e) (inm e) (outm e) p (1 / p).

(** integrator-euler.hh 171-197; [x] is the current value of the input. *)
Definition initialize (e : integ) (x : sig) : outcome integ :=
  match den e, num e with
  | a :: l, _ :: _ =>
      if is_identity (last l a)
      then Ok (Integ (num e) (den e) (repeat x (length (num e))) (repeat x (length (den e))) (dt e) (invdt e))
      else Throw "The coefficient of the highest order derivative of denominator should be 1"
  | _, _ => Throw "The numerator or the denominator is empty."
  end.

(** integrator-euler.hh 106-151; [x] is the value of the input at this time. *)
Definition integrate (e : integ) (x : sig) : outcome (integ * sig) :=
  (* step 1, lines 115-117 *)
  let* tmp1 := vget (inm e) 0 in
  let* im := vset (inm e) 0 x in
  let* b0 := vget (num e) 0 in
  let* sum := mul b0 x in
  (* step 2, lines 121-128 *)
  let* (im, tmp1, sum) :=
    ofor_range 1 (length (num e))
      (fun i '(im, tmp1, sum) =>
         let* p := vget im (i - 1) in
         let* q := sub p tmp1 in
         let tmp2 := scale q (invdt e) in
         let* tmp1 := vget im i in
         let* im := vset im i tmp2 in
         let* bi := vget (num e) i in
         let* m := mul bi tmp2 in
         let* sum := add sum m in
         Ok (im, tmp1, sum)) (im, tmp1, sum) in
  (* step 3, lines 132-135; an empty denominator gives index -1 in step 4 *)
  if length (den e) =? 0 then UB else
  let d := length (den e) - 1 in
  let* sum := ofor_range 0 d
                (fun i sum => let* ai := vget (den e) i in
                              let* yi := vget (outm e) i in
                              let* m := mul ai yi in
                              sub sum m) sum in
  (* step 4, lines 140-143: i runs from d-1 down to 0 *)
  let* om := vset (outm e) d sum in
  let* om := ofor_range 0 d
                 (fun k om => let i := d - 1 - k in
                              let* yi := vget om i in
                              let* yi1 := vget om (i + 1) in
                              let* s := add yi (scale yi1 (dt e)) in
                              vset om i s) om in
  (* lines 146-147 *)
  let* im := vset im 0 x in
  let* res := vget om 0 in
  Ok (Integ (num e) (den e) im om (dt e) (invdt e), res).

(** integrator-euler.hh 153-162, after SOUT has been recomputed *)
Definition derivative (e : integ) : outcome sig :=
  if length (outm e) <? 2 then Throw "Integrator does not compute the derivative." else vget (outm e) 1.

(** The values of the input at successive times, the outputs. *)
Definition step (s : integ * list sig) (x : sig) : outcome (integ * list sig) :=
  let* (e, y) := integrate (fst s) x in Ok (e, snd s ++ [y]).
End Euler.

Arguments num {sig coef} _. Arguments den {sig coef} _. Arguments inm {sig coef} _.
Arguments outm {sig coef} _. Arguments dt {sig coef} _. Arguments invdt {sig coef} _.
Arguments integ_new {sig coef}.
Arguments pushNumCoef {sig coef}. Arguments pushDenomCoef {sig coef}. Arguments setSamplingPeriod {sig coef}.

(** integrator-euler.hh 33-36: c == 1 *)
Definition one_d (c : R) : bool := if Req_EM_T c 1 then true else false.

(** * Vector *)
Definition vec := list R.
Definition vop (f : R -> R -> R) (a b : vec) : outcome vec :=
  if length a =? length b then Ok (map (fun p => f (fst p) (snd p)) (combine a b)) else UB.
Definition vscale (a : vec) (r : R) : vec := map (fun x => x * r)%R a.

(** * Vector and double *)
Definition initialize_vd := initialize vec R one_d.
Definition integrate_vd := integrate vec R (vop Rplus) (vop Rminus) vscale (fun c a => Ok (map (Rmult c) a)).
Definition step_vd := step vec R (vop Rplus) (vop Rminus) vscale (fun c a => Ok (map (Rmult c) a)).

(** * Vector and Matrix *)
Record mat := Mat { rows : nat; cols : nat; ent : nat -> nat -> R }.
Fixpoint sum_to (n : nat) (f : nat -> R) : R := match n with 0 => 0%R | S n => (sum_to n f + f n)%R end.
(** Eigen: matrix times vector *)
Definition mv (m : mat) (v : vec) : outcome vec :=
  if cols m =? length v
  then Ok (map (fun i => sum_to (cols m) (fun j => ent m i j * nth j v 0)%R) (seq 0 (rows m))) else UB.
(** Eigen: isIdentity with the precision 1e-12 of double: a diagonal entry [x] is accepted when
    |x - 1| <= min(|x|, 1) 1e-12, another one when |x| <= 1e-12; any shape is accepted. *)
Definition prec : R := (/ 10 ^ 12)%R.
Definition Rleb (a b : R) : bool := if Rle_dec a b then true else false.
Definition isIdentity (m : mat) : bool :=
  forallb (fun i => forallb (fun j =>
    if i =? j then Rleb (Rabs (ent m i j - 1)) (Rmin (Rabs (ent m i j)) 1 * prec)
    else Rleb (Rabs (ent m i j)) prec) (seq 0 (cols m))) (seq 0 (rows m)).
Definition initialize_vm := initialize vec mat isIdentity.
Definition integrate_vm := integrate vec mat (vop Rplus) (vop Rminus) vscale mv.
Definition step_vm := step vec mat (vop Rplus) (vop Rminus) vscale mv.
