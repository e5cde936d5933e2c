(** The gripper factor in IEEE arithmetic (C59). *)
From Coq Require Import List ZArith Bool SpecFloat.
From Verif Require Import Base Float_Facts Tools_Float_Model.
Import ListNotations.

(** The evaluations of one finger: (torque, limit, velocity). *)
Definition frun (offset : float) (l : list (float * float * float)) (f : float) : float :=
  fold_left (fun f e => match e with (t, m, v) => grip_factor1_f64 offset f t m v end) l f.

(** Once the factor is zero nothing brings it back. *)
Theorem gripper_zero_is_final m e l :
  frun (S754_finite false m e) l f0 = f0.
Proof.
  induction l as [|[[t lim] v] l IH]; [reflexivity|]. cbn [frun fold_left].
  replace (grip_factor1_f64 (S754_finite false m e) f0 t lim v) with f0; [exact IH|].
  unfold grip_factor1_f64. destruct (_ && _); [reflexivity|]. destruct (_ && _); reflexivity.
Qed.

(** So the factor of a finger that pushes long enough reaches zero by rounding and never recovers
    (offset 1/2, which the offset command accepts), against the property of the exact model. *)
Theorem gripper_never_recovers_refuted : exists pushes : list (float * float * float),
  (forall e, In e pushes -> e = (f2, f1, f1)) /\
  forall rest, frun fhalf (pushes ++ rest) f1 = f0.
Proof.
  exists (repeat (f2, f1, f1) 1100). split; [intros e H; exact (repeat_spec _ _ _ H)|].
  intros rest. unfold frun. rewrite fold_left_app.
  match goal with |- fold_left ?g rest ?x = _ => assert (E : x = f0) by (vm_compute; reflexivity) end.
  rewrite E. apply (gripper_zero_is_final 4503599627370496 (-53) rest).
Qed.

Print Assumptions gripper_zero_is_final.
Print Assumptions gripper_never_recovers_refuted.

(** Whatever the numbers, infinite and not a number included, the factor is a number between zero and one. *)
Theorem gripper_factor_float_range offset f torque limit vel :
  let r := grip_factor1_f64 offset f torque limit vel in fnan r = false /\ fleb f0 r = true /\ fleb r f1 = true.
Proof.
  unfold grip_factor1_f64. match goal with |- context [if fltb ?x f0 then f0 else _] => generalize x end. intros g. cbv zeta.
  destruct (fltb g f0) eqn:A; [cbn; auto|]. destruct (fltb g f1) eqn:B; [|cbn; auto].
  assert (N : fnan g = false) by (destruct g; try reflexivity; discriminate). split; [exact N|]. split.
  - rewrite (fltb_fleb g f0 N eq_refl) in A. now apply negb_false_iff in A.
  - unfold SFltb in B. unfold SFleb. destruct (SFcompare g f1) as [[]|]; congruence.
Qed.
Print Assumptions gripper_factor_float_range.
