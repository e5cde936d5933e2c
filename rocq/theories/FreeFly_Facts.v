(** The exponential of SE(3): the motion with a constant velocity of the body. *)
From Coq Require Import String List Arith Lia ZArith Bool Reals Lra Psatz.
From Verif Require Import Base Device_Model Geom_Model Geom_Facts Geom_Rot Geom_Props OpPoint_Model OpPoint_Props
  Rel_Facts FreeFly_Model.
Import ListNotations.
Local Open Scope R_scope.

Lemma deriv_lin k s : derivable_pt_lim (fun s => s * k) s k.
Proof.
  pose proof (derivable_pt_lim_mult id (fct_cte k) s 1 0 (derivable_pt_lim_id s) (derivable_pt_lim_const k s)) as X.
  cbv beta in X. replace (1 * fct_cte k s + id s * 0) with k in X by (unfold fct_cte, id; ring). exact X.
Qed.

Lemma trig3 a b c th s :
  derivable_pt_lim (fun s => a + b * cos (s * th) + c * sin (s * th)) s
    (th * (c * cos (s * th) - b * sin (s * th))).
Proof.
  pose proof (deriv_lin th s) as L.
  replace (th * (c * cos (s * th) - b * sin (s * th)))
    with (0 + b * (- sin (s * th) * th) + c * (cos (s * th) * th)) by ring.
  apply (derivable_pt_lim_plus (fun s => a + b * cos (s * th)) (fun s => c * sin (s * th))).
  - apply (derivable_pt_lim_plus (fct_cte a) (fun s => b * cos (s * th))); [apply derivable_pt_lim_const|].
    apply (derivable_pt_lim_scal (fun s => cos (s * th))).
    apply (derivable_pt_lim_comp (fun s => s * th) cos); [exact L|apply derivable_pt_lim_cos].
  - apply (derivable_pt_lim_scal (fun s => sin (s * th))).
    apply (derivable_pt_lim_comp (fun s => s * th) sin); [exact L|apply derivable_pt_lim_sin].
Qed.

Lemma trig3_eq f s d a b c th :
  (forall s, f s = a + b * cos (s * th) + c * sin (s * th)) ->
  d = th * (c * cos (s * th) - b * sin (s * th)) -> derivable_pt_lim f s d.
Proof.
  intros E ->. intros eps He. destruct (trig3 a b c th s eps He) as [del K]. exists del.
  intros h Hh Hd. rewrite !E. exact (K h Hh Hd).
Qed.

Lemma spin u th s : vdot u u = 1 ->
  mderiv (fun s => aaToMat (AA (s * th) u)) s (mmul (aaToMat (AA (s * th) u)) (skew (vscal th u))).
Proof.
  destruct u as [x y z]. unfold vdot. cbn [vx vy vz]. intros U.
  assert (Ux : x * x = 1 - y * y - z * z) by lra.
  unfold mderiv, aaToMat, mmul, skew, vscal. cbn [ang axis vx vy vz m00 m01 m02 m10 m11 m12 m20 m21 m22].
  repeat split.
  - apply (trig3_eq _ s _ (x * x) (y * y + z * z) 0 th); intros; ring [Ux].
  - apply (trig3_eq _ s _ (x * y) (- (x * y)) (- z) th); intros; ring [Ux].
  - apply (trig3_eq _ s _ (x * z) (- (x * z)) y th); intros; ring [Ux].
  - apply (trig3_eq _ s _ (x * y) (- (x * y)) z th); intros; ring [Ux].
  - apply (trig3_eq _ s _ (y * y) (x * x + z * z) 0 th); intros; ring [Ux].
  - apply (trig3_eq _ s _ (y * z) (- (y * z)) (- x) th); intros; ring [Ux].
  - apply (trig3_eq _ s _ (x * z) (- (x * z)) (- y) th); intros; ring [Ux].
  - apply (trig3_eq _ s _ (y * z) (- (y * z)) x th); intros; ring [Ux].
  - apply (trig3_eq _ s _ (z * z) (x * x + y * y) 0 th); intros; ring [Ux].
Qed.

Lemma vnorm_scal s w : vnorm (vscal s w) = Rabs s * vnorm w.
Proof.
  unfold vnorm. replace (vdot (vscal s w) (vscal s w)) with (Rsqr s * vdot w w)
    by (destruct w; unfold vdot, vscal, Rsqr; cbn; ring).
  rewrite sqrt_mult; [now rewrite sqrt_Rsqr_abs|apply Rle_0_sqr|]. destruct w; unfold vdot; cbn; nra.
Qed.
Lemma vnorm_pos w : 0 <= vnorm w.
Proof. apply sqrt_pos. Qed.
Lemma vnorm_sqr w : vnorm w * vnorm w = vdot w w.
Proof. apply sqrt_sqrt. destruct w; unfold vdot; cbn; nra. Qed.
Lemma vnorm_0_inv w : vnorm w = 0 -> w = v0.
Proof.
  intros E. pose proof (vnorm_sqr w) as S. rewrite E in S. destruct w as [x y z]. unfold vdot in S. cbn in S.
  unfold v0. f_equal; nra.
Qed.

Definition unit_of (w : vec3) : vec3 := vscal (/ vnorm w) w.
Lemma unit_of_unit w : vnorm w <> 0 -> vdot (unit_of w) (unit_of w) = 1.
Proof.
  intros Hn. unfold unit_of. replace (vdot (vscal (/ vnorm w) w) (vscal (/ vnorm w) w))
    with (/ vnorm w * / vnorm w * vdot w w) by (destruct w; unfold vdot, vscal; cbn; ring).
  rewrite <- vnorm_sqr. field. exact Hn.
Qed.
Lemma unit_of_scal w : vnorm w <> 0 -> w = vscal (vnorm w) (unit_of w).
Proof. intros Hn. unfold unit_of. destruct w as [x y z]; unfold vscal; cbn [vx vy vz]. f_equal; field; exact Hn. Qed.

Lemma exp3_line s w : vnorm w <> 0 -> exp3 (vscal s w) = aaToMat (AA (s * vnorm w) (unit_of w)).
Proof.
  intros Hn. unfold exp3. rewrite vnorm_scal. pose proof (vnorm_pos w) as Hp.
  destruct (Req_EM_T (Rabs s * vnorm w) 0) as [Z|Z].
  - assert (s = 0) as -> by (apply Rmult_integral in Z as [Z|Z]; [destruct (Req_dec s 0); [auto|apply Rabs_no_R0 in H; contradiction]|contradiction]).
    rewrite Rmult_0_l. destruct (unit_of w) as [a b c]. unfold aaToMat. cbn. rewrite sin_0, cos_0. unfold mid. f_equal; ring.
  - assert (Hs : s <> 0) by (intros ->; rewrite Rabs_R0 in Z; lra).
    unfold Rabs in *. destruct (Rcase_abs s) as [Hneg|Hpos].
    + replace (vscal (/ (- s * vnorm w)) (vscal s w)) with (vopp (unit_of w)).
      2:{ unfold unit_of. destruct w as [x y z]. unfold vopp, vscal. cbn [vx vy vz]. f_equal; field; split; assumption. }
      destruct (unit_of w) as [a b c]. unfold aaToMat, vopp, vscal. cbn [ang axis vx vy vz].
      replace (- s * vnorm w) with (- (s * vnorm w)) by ring. rewrite sin_neg, cos_neg. f_equal; ring.
    + f_equal. f_equal. unfold unit_of. destruct w as [x y z]. unfold vscal. cbn [vx vy vz]. f_equal; field; split; assumption.
Qed.

(** Position reached after the duration [s]. *)
Definition screw (v w : vec3) (s : R) : vec3 :=
  let th := vnorm w in let u := unit_of w in
  vadd (vscal s v) (vadd (vscal ((1 - cos (s * th)) / th) (cross u v))
                         (vscal (s - sin (s * th) / th) (cross u (cross u v)))).

Lemma exp6_line v w s : vnorm w <> 0 ->
  exp6 (vscal s v, vscal s w) = H (aaToMat (AA (s * vnorm w) (unit_of w))) (screw v w s).
Proof.
  intros Hn. unfold exp6. rewrite exp3_line by exact Hn. f_equal. rewrite vnorm_scal. pose proof (vnorm_pos w) as Hp.
  unfold screw. set (th := vnorm w) in *.
  assert (Ew : w = vscal th (unit_of w)) by (apply unit_of_scal, Hn).
  set (u := unit_of w) in *. clearbody u. clearbody th. subst w.
  destruct (Req_EM_T (Rabs s * th) 0) as [Z|Z].
  - assert (s = 0) as -> by (apply Rmult_integral in Z as [Z|Z]; [destruct (Req_dec s 0); [auto|apply Rabs_no_R0 in H; contradiction]|contradiction]).
    rewrite Rmult_0_l, sin_0, cos_0. destruct u, v. unfold vadd, vscal, cross. cbn. f_equal; field; exact Hn.
  - assert (Hs : s <> 0) by (intros ->; rewrite Rabs_R0 in Z; lra).
    assert (A : Rabs s * th * (Rabs s * th) = (s * th) * (s * th)).
    { replace (Rabs s * th * (Rabs s * th)) with (Rabs s * Rabs s * (th * th)) by ring.
      rewrite <- Rabs_mult, Rabs_right by nra. ring. }
    assert (C : cos (Rabs s * th) = cos (s * th)).
    { unfold Rabs. destruct (Rcase_abs s); [|reflexivity]. replace (- s * th) with (- (s * th)) by ring. apply cos_neg. }
    assert (S : (Rabs s * th - sin (Rabs s * th)) / (Rabs s * th * (Rabs s * th) * (Rabs s * th))
                = (s * th - sin (s * th)) / ((s * th) * (s * th) * (s * th))).
    { rewrite A. unfold Rabs. destruct (Rcase_abs s); [|reflexivity].
      replace (- s * th) with (- (s * th)) by ring. rewrite sin_neg. field. split; assumption. }
    rewrite S, A, C. clear S A C. destruct u as [a b c], v as [x y z]. unfold vadd, vscal, cross.
    cbn [vx vy vz]. f_equal; field; split; assumption.
Qed.

Lemma lin_trig f s d a k b c th : th <> 0 ->
  (forall s, f s = a + k * s + b * cos (s * th) + c * sin (s * th)) ->
  d = k + th * (c * cos (s * th) - b * sin (s * th)) -> derivable_pt_lim f s d.
Proof.
  intros Hth E ->.
  assert (X : derivable_pt_lim (fun s => k * s + (a + b * cos (s * th) + c * sin (s * th))) s
                (k + th * (c * cos (s * th) - b * sin (s * th)))).
  { apply (derivable_pt_lim_plus (fun s => k * s) (fun s => a + b * cos (s * th) + c * sin (s * th))); [|apply trig3].
    pose proof (deriv_lin k s) as L. intros eps He. destruct (L eps He) as [del K]. exists del.
    intros h Hh Hd. rewrite !(Rmult_comm k). exact (K h Hh Hd). }
  intros eps He. destruct (X eps He) as [del K]. exists del. intros h Hh Hd. rewrite !E.
  specialize (K h Hh Hd). cbn beta in K.
  replace (a + k * (s + h) + b * cos ((s + h) * th) + c * sin ((s + h) * th) - (a + k * s + b * cos (s * th) + c * sin (s * th)))
    with (k * (s + h) + (a + b * cos ((s + h) * th) + c * sin ((s + h) * th)) - (k * s + (a + b * cos (s * th) + c * sin (s * th)))) by ring.
  exact K.
Qed.

Lemma screw_deriv v w s : vnorm w <> 0 ->
  vderiv (screw v w) s (mapp (aaToMat (AA (s * vnorm w) (unit_of w))) v).
Proof.
  intros Hn. pose proof (unit_of_unit w Hn) as U. unfold screw. set (th := vnorm w) in *.
  destruct (unit_of w) as [a b c], v as [x y z]. unfold vdot in U. cbn [vx vy vz] in U.
  assert (Ua : a * a = 1 - b * b - c * c) by lra.
  unfold vderiv, mapp, aaToMat, vadd, vscal, cross. cbn [ang axis vx vy vz m00 m01 m02 m10 m11 m12 m20 m21 m22].
  set (p := b * z - c * y). set (q := c * x - a * z). set (r := a * y - b * x).
  repeat split.
  - apply (lin_trig _ s _ (p / th) (x + (b * r - c * q)) (- (p / th)) (- ((b * r - c * q) / th)) th Hn).
    + intros t. field. exact Hn.
    + unfold p, q, r. field_simplify; [|exact Hn]. ring [Ua].
  - apply (lin_trig _ s _ (q / th) (y + (c * p - a * r)) (- (q / th)) (- ((c * p - a * r) / th)) th Hn).
    + intros t. field. exact Hn.
    + unfold p, q, r. field_simplify; [|exact Hn]. ring [Ua].
  - apply (lin_trig _ s _ (r / th) (z + (a * q - b * p)) (- (r / th)) (- ((a * q - b * p) / th)) th Hn).
    + intros t. field. exact Hn.
    + unfold p, q, r. field_simplify; [|exact Hn]. ring [Ua].
Qed.

Lemma exp3_v0 s : exp3 (vscal s v0) = mid.
Proof.
  unfold exp3. rewrite vnorm_scal. replace (vnorm v0) with 0 by (unfold vnorm, vdot, v0; cbn; rewrite <- sqrt_0 at 1; f_equal; ring).
  destruct (Req_EM_T (Rabs s * 0) 0) as [_|N]; [reflexivity|]. exfalso. apply N. ring.
Qed.

Lemma exp6_v0 v s : exp6 (vscal s v, vscal s v0) = H mid (vscal s v).
Proof.
  unfold exp6. rewrite exp3_v0. f_equal.
  rewrite vnorm_scal. replace (vnorm v0) with 0 by (unfold vnorm, vdot, v0; cbn; rewrite <- sqrt_0 at 1; f_equal; ring).
  destruct (Req_EM_T (Rabs s * 0) 0) as [_|N]; [reflexivity|]. exfalso. apply N. ring.
Qed.

(** The exponential moves with the constant velocity (v, w) of the body. *)
Lemma exp6_velocity v w s : body_velocity (fun s => exp6 (vscal s v, vscal s w)) s (v, w).
Proof.
  destruct (Req_dec (vnorm w) 0) as [Z|Hn].
  - apply vnorm_0_inv in Z as ->. split; cbn [fst snd].
    + rewrite exp6_v0. cbn [lin]. rewrite mapp_id.
      apply (vderiv_eq (fun s => vscal s v) _ s v); [intros t; now rewrite exp6_v0|reflexivity|].
      destruct v as [x y z]. unfold vderiv, vscal. cbn [vx vy vz].
      repeat split; apply deriv_lin.
    + rewrite exp6_v0. cbn [lin]. apply (mderiv_eq (fun _ => mid) _ s mzero); [intros t; now rewrite exp6_v0| |apply mderiv_const].
      unfold skew, v0, mzero, mmul, mid. cbn. f_equal; ring.
  - split; cbn [fst snd].
    + rewrite exp6_line by exact Hn. cbn [lin].
      apply (vderiv_eq (screw v w) _ s _ _ (fun t => eq_sym (f_equal trn (exp6_line v w t Hn))) eq_refl).
      now apply screw_deriv.
    + rewrite exp6_line by exact Hn. cbn [lin].
      refine (mderiv_eq _ _ s _ _ (fun t => eq_sym (f_equal lin (exp6_line v w t Hn))) _ (spin (unit_of w) (vnorm w) s (unit_of_unit w Hn))).
      now rewrite <- unit_of_scal by exact Hn.
Qed.

Lemma exp6_0 v w : exp6 (vscal 0 v, vscal 0 w) = hid.
Proof.
  destruct (Req_dec (vnorm w) 0) as [Z|Hn].
  - apply vnorm_0_inv in Z as ->. rewrite exp6_v0. unfold hid. f_equal. destruct v. unfold vscal, v0. cbn. f_equal; ring.
  - rewrite exp6_line by exact Hn. unfold screw. rewrite Rmult_0_l, sin_0, cos_0. unfold hid. f_equal.
    + destruct (unit_of w) as [a b c]. unfold aaToMat, mid. cbn. rewrite sin_0, cos_0. f_equal; ring.
    + destruct (unit_of w) as [a b c], v as [x y z]. unfold vadd, vscal, cross, v0. cbn [vx vy vz]. f_equal; field; exact Hn.
Qed.

Lemma exp6_rigid v w : is_rigid (exp6 (v, w)).
Proof.
  unfold is_rigid, exp6. cbn [lin]. unfold exp3. destruct (Req_EM_T (vnorm w) 0); [exact rot_id|].
  apply aaToMat_rot. apply (unit_of_unit w n).
Qed.

Lemma left_velocity M0 (M : R -> hom) s n : body_velocity M s n -> body_velocity (fun s => hmul M0 (M s)) s n.
Proof.
  intros [V W]. split.
  - unfold hmul. cbn [lin trn]. refine (vderiv_eq _ _ s _ _ (fun _ => eq_refl) _
      (vderiv_add _ _ s _ _ (vderiv_mapp _ _ s _ _ (mderiv_const (lin M0) s) V) (vderiv_const (trn M0) s))).
    destruct M0 as [[] []], (M s) as [[] []], n as [[] []]. unfold vadd, mapp, mmul, v0, mzero. cbn. f_equal; ring.
  - unfold hmul. cbn [lin]. refine (mderiv_eq _ _ s _ _ (fun _ => eq_refl) _ (mderiv_mmul _ _ s _ _ (mderiv_const (lin M0) s) W)).
    destruct M0 as [[] []], (M s) as [[] []], n as [[] []]. unfold madd, mmul, mzero, skew. cbn. f_equal; ring.
Qed.
