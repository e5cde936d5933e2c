(** Theorems about the gains (properties C23-C25). *)
From Coq Require Import List Reals Lra Lia.
From Verif Require Import Gain_Model.
Import ListNotations.
Local Open Scope R_scope.

(** ** The norm is the Euclidean norm *)
Lemma sumsq_nonneg e : 0 <= fold_right (fun x s => x * x + s) 0 e.
Proof. induction e as [|x e IH]; simpl; [lra|]. pose proof (Rle_0_sqr x). unfold Rsqr in *. lra. Qed.
Lemma norm_nonneg e : 0 <= norm e.
Proof. apply sqrt_pos. Qed.
Theorem norm_zero_iff (e : list R) : norm e = 0 <-> forall x, In x e -> x = 0.
Proof.
  unfold norm. split.
  - intros H. apply sqrt_eq_0 in H; [|apply sumsq_nonneg].
    induction e as [|y e IH]; intros x Hx; [destruct Hx|]. simpl in H.
    pose proof (sumsq_nonneg e). pose proof (Rle_0_sqr y). unfold Rsqr in *.
    destruct Hx as [->|Hx].
    + assert (x * x = 0) by lra. destruct (Rmult_integral _ _ H2); auto.
    + apply IH; auto. lra.
  - intros H. replace (fold_right (fun x s => x * x + s) 0 e) with 0; [apply sqrt_0|].
    induction e as [|y e IH]; simpl; auto.
    rewrite <- IH by (intros; apply H; right; auto). rewrite (H y) by (left; auto). ring.
Qed.
Lemma norm_one x : 0 <= x -> norm [x] = x.
Proof. intros H. unfold norm. simpl. rewrite Rplus_0_r. apply sqrt_square. exact H. Qed.

(** ** C23 *)

Lemma div_pos x y : 0 < x -> 0 < y -> 0 < x / y.
Proof. intros. apply Rmult_lt_0_compat; auto. apply Rinv_0_lt_compat; auto. Qed.

Section Adaptive.
Variables (g0 : adaptive) (h : list acmd) (v0 vinf tan : R).
Hypothesis Hv : vinf < v0.
Hypothesis Ht : 0 < tan.
(** After any history ending with set(v0, vinf, tan). *)
Let gain (e : list R) : R := a_computeGain (fold_left a_exec (h ++ [ASet v0 vinf tan]) g0) e.

Lemma gain_form e : gain e = (v0 - vinf) * exp (- (tan / (v0 - vinf)) * norm e) + vinf.
Proof.
  unfold gain. rewrite fold_left_app. simpl. unfold a_computeGain, a_init. simpl.
  destruct (Req_EM_T 0 (v0 - vinf)); [lra|reflexivity].
Qed.
Lemma b_pos : 0 < tan / (v0 - vinf).
Proof. apply div_pos; lra. Qed.

Theorem adaptive_at_zero e : (forall x, In x e -> x = 0) -> gain e = v0.
Proof.
  intros H. apply norm_zero_iff in H. rewrite gain_form, H, Rmult_0_r, exp_0. ring.
Qed.

Theorem adaptive_decreases e1 e2 : norm e1 < norm e2 -> gain e2 < gain e1.
Proof.
  intros H. rewrite !gain_form. pose proof b_pos.
  assert (exp (- (tan / (v0 - vinf)) * norm e2) < exp (- (tan / (v0 - vinf)) * norm e1)).
  { apply exp_increasing. nra. }
  nra.
Qed.

Theorem adaptive_range e : vinf < gain e <= v0.
Proof.
  rewrite gain_form. pose proof b_pos. pose proof (norm_nonneg e).
  pose proof (exp_pos (- (tan / (v0 - vinf)) * norm e)).
  assert (exp (- (tan / (v0 - vinf)) * norm e) <= 1).
  { rewrite <- exp_0. destruct (Req_dec (norm e) 0) as [->|Hn].
    - rewrite Rmult_0_r. lra.
    - left. apply exp_increasing. nra. }
  nra.
Qed.

Theorem adaptive_tends eps : 0 < eps ->
  exists N, forall e, N < norm e -> gain e < vinf + eps.
Proof.
  intros He. pose proof b_pos as Hb. set (b := tan / (v0 - vinf)) in *.
  exists (- ln (eps / (v0 - vinf)) / b). intros e Hn. rewrite gain_form. fold b.
  assert (Hx : exp (- b * norm e) < eps / (v0 - vinf)).
  { rewrite <- (exp_ln (eps / (v0 - vinf))) by (apply div_pos; lra).
    apply exp_increasing.
    apply (Rmult_lt_compat_r b) in Hn; [|exact Hb].
    unfold Rdiv in Hn at 1. rewrite Rmult_assoc, Rinv_l in Hn by lra. lra. }
  apply (Rmult_lt_compat_l (v0 - vinf)) in Hx; [|lra].
  replace ((v0 - vinf) * (eps / (v0 - vinf))) with eps in Hx by (field; lra). lra.
Qed.

(** Slope at zero: the difference quotient tends to -tan. *)
Theorem adaptive_slope eps : 0 < eps ->
  exists delta, 0 < delta /\
    forall e, 0 < norm e < delta -> Rabs ((gain e - v0) / norm e - (- tan)) < eps.
Proof.
  intros He. pose proof b_pos as Hb. set (b := tan / (v0 - vinf)) in *.
  assert (D : derivable_pt_lim (fun x => (v0 - vinf) * exp (- b * x) + vinf) 0 (- tan)).
  { replace (- tan) with ((v0 - vinf) * (exp (- b * 0) * (- b * 1)) + 0).
    2:{ rewrite Rmult_0_r, exp_0. unfold b. field. lra. }
    apply (derivable_pt_lim_plus (fun x => (v0 - vinf) * exp (- b * x)) (fun _ => vinf)).
    - apply (derivable_pt_lim_scal (fun x => exp (- b * x))).
      apply (derivable_pt_lim_comp (fun x => - b * x) exp).
      + apply (derivable_pt_lim_scal id). apply derivable_pt_lim_id.
      + apply derivable_pt_lim_exp.
    - apply derivable_pt_lim_const. }
  destruct (D eps He) as [delta Hd]. exists delta. split; [apply cond_pos|].
  intros e [H1 H2]. specialize (Hd (norm e) ltac:(lra)).
  rewrite Rplus_0_l in Hd. rewrite gain_form. fold b.
  replace v0 with ((v0 - vinf) * exp (- b * 0) + vinf) at 2
    by (rewrite Rmult_0_r, exp_0; ring).
  apply Hd. rewrite Rabs_right; lra.
Qed.
End Adaptive.

(** setConstant: the gain is the constant, whatever the history and the error. *)
Theorem adaptive_constant (g0 : adaptive) (h : list acmd) (lambda : R) (e : list R) :
  a_computeGain (fold_left a_exec (h ++ [ASetConstant lambda]) g0) e = lambda.
Proof.
  rewrite fold_left_app. simpl. unfold a_computeGain, a_init1, a_init. simpl.
  rewrite Rminus_diag_eq by reflexivity. ring.
Qed.

(** forceConstant: the gain becomes the value at infinity for every error. *)
Theorem adaptive_forced (g0 : adaptive) (h : list acmd) (v0 vinf tan : R) (e : list R) :
  a_computeGain (fold_left a_exec (h ++ [ASet v0 vinf tan; AForceConstant]) g0) e = vinf.
Proof. rewrite fold_left_app. simpl. unfold a_computeGain. simpl. ring. Qed.

(** Only the last setting counts: earlier commands have no effect. *)
Theorem adaptive_last_setting (g0 g1 : adaptive) (h1 h2 : list acmd) (c : acmd) (later : list acmd) (e : list R) :
  c <> AForceConstant ->
  a_computeGain (fold_left a_exec (h1 ++ c :: later) g0) e =
  a_computeGain (fold_left a_exec (h2 ++ c :: later) g1) e.
Proof.
  intros Hc. rewrite !fold_left_app. cbn [fold_left].
  destruct c; try congruence; reflexivity.
Qed.

(** With v0 < vinf a positive slope makes the gain run away to minus infinity: the sign of
    the slope must be the sign of v0 - vinf. *)
Theorem adaptive_wrong_sign_diverges (v0 vinf tan M : R) :
  v0 < vinf -> 0 < tan -> exists e, a_computeGain (a_init v0 vinf tan) e < M.
Proof.
  intros Hv Ht.
  set (b := tan / (vinf - v0)).
  assert (Hb : 0 < b) by (apply div_pos; lra).
  set (x := (Rabs (vinf - M) + 1) / (vinf - v0) / b).
  assert (Hx : 0 < x). { apply div_pos; auto. apply div_pos; [|lra]. pose proof (Rabs_pos (vinf - M)). lra. }
  exists [x]. unfold a_computeGain, a_init. simpl.
  destruct (Req_EM_T 0 (v0 - vinf)); [lra|].
  rewrite norm_one by lra.
  replace (- (tan / (v0 - vinf)) * x) with ((Rabs (vinf - M) + 1) / (vinf - v0)).
  2:{ unfold x, b. field. repeat split; lra. }
  set (y := (Rabs (vinf - M) + 1) / (vinf - v0)).
  assert (Hy : 0 < y). { apply div_pos; [|lra]. pose proof (Rabs_pos (vinf - M)). lra. }
  pose proof (exp_ineq1 y ltac:(lra)) as He.
  assert (Hz : (vinf - v0) * y = Rabs (vinf - M) + 1) by (unfold y; field; lra).
  pose proof (Rle_abs (vinf - M)). nra.
Qed.

(** ** C24 *)
Theorem adaptive_passing_point (g0 : adaptive) (h : list acmd) (v0 vinf x p : R) (e : list R) :
  x <> 0 -> 0 < p -> norm e = x ->
  a_computeGain (fold_left a_exec (h ++ [ASetByPoint v0 vinf x p]) g0) e = vinf + p * (v0 - vinf).
Proof.
  intros Hx Hp He. rewrite fold_left_app. simpl. unfold a_computeGain, a_initFromPassingPoint. simpl.
  rewrite He. destruct (Req_EM_T 0 (v0 - vinf)) as [H|H].
  - rewrite <- H. ring.
  - replace (- (-1 / x * ln p) * x) with (ln p) by (field; exact Hx).
    rewrite exp_ln by exact Hp. ring.
Qed.

Theorem adaptive_passing_point_zero (g0 : adaptive) (h : list acmd) (v0 vinf x p : R) (e : list R) :
  (forall c, In c e -> c = 0) ->
  a_computeGain (fold_left a_exec (h ++ [ASetByPoint v0 vinf x p]) g0) e = v0.
Proof.
  intros He. apply norm_zero_iff in He. rewrite fold_left_app. simpl.
  unfold a_computeGain, a_initFromPassingPoint. simpl. rewrite He, Rmult_0_r, exp_0. ring.
Qed.

(** ** C25 *)
Lemma tanh_sigmoid y : (1 / 2) * (tanh y + 1) = / (1 + exp (- (2 * y))).
Proof.
  unfold tanh, sinh, cosh.
  assert (E : exp (- (2 * y)) = exp (- y) * exp (- y)) by (rewrite <- exp_plus; f_equal; ring).
  assert (E1 : exp (- y) = / exp y) by apply exp_Ropp.
  rewrite E, !E1. pose proof (exp_pos y).
  assert (exp y * exp y + 1 <> 0) by nra.
  field. repeat split; nra.
Qed.

Section Hyperbolic.
Variables (v0 vinf tan d : R).
Hypothesis Hv : vinf < v0.
Hypothesis Ht : 0 < tan.
Let gain (e : list R) : R := h_computeGain (h_init v0 vinf tan d) e.

Lemma hgain_form e :
  gain e = (v0 - vinf) * / (1 + exp (tan / (v0 - vinf) * (norm e - d))) + vinf.
Proof.
  unfold gain, h_computeGain, h_init. simpl.
  destruct (Req_EM_T 0 (v0 - vinf)); [lra|].
  rewrite Rmult_assoc, tanh_sigmoid. do 5 f_equal. field. lra.
Qed.
Lemma hb_pos : 0 < tan / (v0 - vinf).
Proof. apply div_pos; lra. Qed.

Theorem hyperbolic_range e : vinf < gain e < v0.
Proof.
  rewrite hgain_form. pose proof (exp_pos (tan / (v0 - vinf) * (norm e - d))).
  set (E := exp _) in *. assert (0 < / (1 + E)) by (apply Rinv_0_lt_compat; lra).
  assert (/ (1 + E) < 1). { rewrite <- Rinv_1. apply Rinv_lt_contravar; lra. }
  nra.
Qed.

Theorem hyperbolic_decreases e1 e2 : norm e1 < norm e2 -> gain e2 < gain e1.
Proof.
  intros H. rewrite !hgain_form. pose proof hb_pos.
  set (E1 := exp (_ * (norm e1 - d))). set (E2 := exp (_ * (norm e2 - d))).
  assert (0 < E1) by apply exp_pos. assert (0 < E2) by apply exp_pos.
  assert (E1 < E2) by (apply exp_increasing; nra).
  assert (/ (1 + E2) < / (1 + E1)) by (apply Rinv_lt_contravar; nra). nra.
Qed.

Theorem hyperbolic_mean e : norm e = d -> gain e = (v0 + vinf) / 2.
Proof. intros H. rewrite hgain_form. replace (norm e - d) with 0 by lra. rewrite Rmult_0_r, exp_0. field. Qed.

Theorem hyperbolic_tends eps : 0 < eps ->
  exists N, forall e, N < norm e -> gain e < vinf + eps.
Proof.
  intros He. pose proof hb_pos as Hb. set (b := tan / (v0 - vinf)) in *.
  exists (d + ln ((v0 - vinf) / eps) / b). intros e Hn. rewrite hgain_form. fold b.
  assert (Hx : (v0 - vinf) / eps < exp (b * (norm e - d))).
  { rewrite <- (exp_ln ((v0 - vinf) / eps)) by (apply div_pos; lra).
    apply exp_increasing.
    assert (H : ln ((v0 - vinf) / eps) / b < norm e - d) by lra.
    apply (Rmult_lt_compat_l b) in H; [|exact Hb].
    replace (b * (ln ((v0 - vinf) / eps) / b)) with (ln ((v0 - vinf) / eps)) in H by (field; lra). exact H. }
  set (E := exp _) in *.
  assert (HE : v0 - vinf < eps * E).
  { apply (Rmult_lt_compat_l eps) in Hx; [|lra].
    replace (eps * ((v0 - vinf) / eps)) with (v0 - vinf) in Hx by (field; lra). exact Hx. }
  assert (0 < E) by apply exp_pos.
  assert ((v0 - vinf) * / (1 + E) < eps).
  { apply (Rmult_lt_reg_r (1 + E)); [lra|].
    rewrite Rmult_assoc, Rinv_l by lra. nra. }
  lra.
Qed.

(** The slope at the inflexion is a quarter of the parameter. *)
Theorem hyperbolic_slope_quarter eps : 0 < eps -> 0 <= d ->
  exists delta, 0 < delta /\
    forall e, norm e <> d -> Rabs (norm e - d) < delta ->
      Rabs ((gain e - (v0 + vinf) / 2) / (norm e - d) - (- tan / 4)) < eps.
Proof.
  intros He Hd0. set (b := tan / (v0 - vinf)).
  assert (D : derivable_pt_lim (fun x => (v0 - vinf) * / (1 + exp (b * x)) + vinf) 0 (- tan / 4)).
  { replace (- tan / 4) with ((v0 - vinf) * (- (0 + exp (b * 0) * (b * 1)) / Rsqr (1 + exp (b * 0))) + 0).
    2:{ rewrite Rmult_0_r, exp_0. unfold b, Rsqr. field. lra. }
    apply (derivable_pt_lim_plus (fun x => (v0 - vinf) * / (1 + exp (b * x))) (fun _ => vinf)).
    - apply (derivable_pt_lim_scal (fun x => / (1 + exp (b * x)))).
      replace (- (0 + exp (b * 0) * (b * 1)) / Rsqr (1 + exp (b * 0)))
        with ((0 * (1 + exp (b * 0)) - (0 + exp (b * 0) * (b * 1)) * 1) / Rsqr (1 + exp (b * 0)))
        by (rewrite Rmult_0_r, exp_0; unfold Rsqr; field).
      assert (DD : derivable_pt_lim (fun x => 1 / (1 + exp (b * x))) 0
         ((0 * (1 + exp (b * 0)) - (0 + exp (b * 0) * (b * 1)) * 1) / Rsqr (1 + exp (b * 0)))).
      { apply (derivable_pt_lim_div (fun _ => 1) (fun x => 1 + exp (b * x))).
        - apply derivable_pt_lim_const.
        - apply (derivable_pt_lim_plus (fun _ => 1) (fun x => exp (b * x))).
          + apply derivable_pt_lim_const.
          + apply (derivable_pt_lim_comp (fun x => b * x) exp).
            * apply (derivable_pt_lim_scal id). apply derivable_pt_lim_id.
            * apply derivable_pt_lim_exp.
        - pose proof (exp_pos (b * 0)). lra. }
      intros ee Hee. destruct (DD ee Hee) as [delta Hdl]. exists delta. intros x Hx1 Hx2.
      specialize (Hdl x Hx1 Hx2). unfold Rdiv in Hdl at 2 3. rewrite !Rmult_1_l in Hdl. exact Hdl.
    - apply derivable_pt_lim_const. }
  destruct (D eps He) as [delta Hdl]. exists delta. split; [apply cond_pos|].
  intros e H1 H2. specialize (Hdl (norm e - d) ltac:(lra) H2).
  rewrite Rplus_0_l in Hdl. rewrite hgain_form. fold b.
  replace ((v0 + vinf) / 2) with ((v0 - vinf) * / (1 + exp (b * 0)) + vinf)
    by (rewrite Rmult_0_r, exp_0; field).
  exact Hdl.
Qed.
End Hyperbolic.

Theorem hyperbolic_constant (lambda tan d : R) (e : list R) :
  h_computeGain (h_init lambda lambda tan d) e = lambda.
Proof. unfold h_computeGain, h_init. simpl. rewrite Rminus_diag_eq by reflexivity. ring. Qed.

(** forceConstant: the gain becomes the value at infinity for every error. *)
Theorem hyperbolic_forced (v0 vinf tan d : R) (e : list R) :
  h_computeGain (h_forceConstant (h_init v0 vinf tan d)) e = vinf.
Proof. unfold h_computeGain, h_forceConstant, h_init. simpl. ring. Qed.

(** Finding: the "value at 0" of the hyperbolic gain is not its value at zero error, which
    with decal 0 is the mean of the end values. *)
Theorem hyperbolic_value_at_zero_refuted (v0 vinf tan : R) :
  vinf < v0 -> h_computeGain (h_init v0 vinf tan 0) [] = (v0 + vinf) / 2 /\
               h_computeGain (h_init v0 vinf tan 0) [] <> v0.
Proof.
  intros Hv. assert (H : h_computeGain (h_init v0 vinf tan 0) [] = (v0 + vinf) / 2).
  { unfold h_computeGain, h_init. simpl. replace (norm []) with 0 by (unfold norm; simpl; rewrite sqrt_0; auto).
    rewrite Rminus_0_r, Rmult_0_r. unfold tanh, sinh. rewrite Ropp_0, exp_0. unfold cosh. rewrite Ropp_0, exp_0. field. }
  rewrite H. split; [reflexivity|lra].
Qed.

(** ** Examples: values of the documentation, setByPoint(4.9, 0.001, 0.01, 0.1). *)
Example gain_example :
  norm [3 / 10; 4 / 10] = 5 / 10 /\
  a_computeGain (fold_left a_exec [ASetByPoint 5 1 (5 / 10) (1 / 4)] (mkA 0 0 0)) [3 / 10; 4 / 10] = 2 /\
  a_computeGain (a_init 5 1 2) [0; 0] = 5.
Proof.
  assert (N : norm [3 / 10; 4 / 10] = 5 / 10).
  { unfold norm. simpl. replace (3 / 10 * (3 / 10) + (4 / 10 * (4 / 10) + 0)) with ((5 / 10) * (5 / 10)) by lra.
    apply sqrt_square. lra. }
  split; [exact N|]. split.
  - pose proof (adaptive_passing_point (mkA 0 0 0) [] 5 1 (5 / 10) (1 / 4) _ ltac:(lra) ltac:(lra) N) as P.
    simpl app in P. rewrite P. lra.
  - apply (adaptive_at_zero (mkA 0 0 0) [] 5 1 2).
    + lra.
    + intros x [<-|[<-|[]]]; reflexivity.
Qed.

(** A new adaptive gain is one tenth whatever the error. *)
Theorem adaptive_default e : a_computeGain a_init0 e = 1 / 10.
Proof. unfold a_computeGain, a_init0, a_init. cbn. field. Qed.

Print Assumptions adaptive_at_zero.
Print Assumptions adaptive_decreases.
Print Assumptions adaptive_range.
Print Assumptions adaptive_tends.
Print Assumptions adaptive_slope.
Print Assumptions adaptive_constant.
Print Assumptions adaptive_last_setting.
Print Assumptions adaptive_passing_point.
Print Assumptions hyperbolic_range.
Print Assumptions hyperbolic_decreases.
Print Assumptions hyperbolic_mean.
Print Assumptions hyperbolic_tends.
Print Assumptions hyperbolic_slope_quarter.
Print Assumptions hyperbolic_value_at_zero_refuted.
Print Assumptions hyperbolic_forced.
Print Assumptions adaptive_default.
