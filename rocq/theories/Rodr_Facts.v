(** The rotation vector (angle times axis) of a rotation matrix and its
    derivative along a moving frame: the mathematical background of the pose
    features.  Nothing here models the repository; [rotvec] is built on the
    external Eigen functions of Geom_Model. *)
From Coq Require Import String List Arith Lia ZArith Bool Reals Lra Psatz.
From Verif Require Import Base Geom_Model Geom_Facts Geom_Rot Geom_Props OpPoint_Model OpPoint_Props.
Import ListNotations.
Local Open Scope R_scope.

(** The rotation vector of a rotation. *)
Definition rotvec (m : mat3) : vec3 := vscal (ang (matToAA m)) (axis (matToAA m)).

(** Half of the antisymmetric part of a matrix, as a vector. *)
Definition vee (m : mat3) : vec3 :=
  V3 ((m21 m - m12 m) / 2) ((m02 m - m20 m) / 2) ((m10 m - m01 m) / 2).
Definition mtr (m : mat3) : R := m00 m + m11 m + m22 m.

(** The derivative of the rotation vector in the direction of a body angular
    velocity (the inverse of the right jacobian of the exponential). *)
Definition jlog (e : vec3) : mat3 :=
  let th := vnorm e in
  if Req_EM_T th 0 then mid else
  madd mid (madd (mscal (1 / 2) (skew e))
                 (mscal (1 / (th * th) - sin th / (2 * th * (1 - cos th)))
                        (mmul (skew e) (skew e)))).

(** The right jacobian of the exponential. *)
Definition jexp (e : vec3) : mat3 :=
  let th := vnorm e in
  if Req_EM_T th 0 then mid else
  madd mid (madd (mscal (- ((1 - cos th) / (th * th))) (skew e))
                 (mscal ((th - sin th) / (th * th * th))
                        (mmul (skew e) (skew e)))).

(* ---------------------------------------------------------------- *)
(** ** Elementary analysis *)
Lemma x_cos_le_sin x : 0 < x < PI / 2 -> x * cos x <= sin x.
Proof.
  intros [A B].
  destruct (MVT_cor2 (fun y => sin y - y * cos y) (fun y => y * sin y) 0 x A)
    as (c & E & C0 & C1).
  - intros c _.
    replace (c * sin c) with (cos c - (1 * cos c + c * - sin c)) by ring.
    apply (derivable_pt_lim_minus sin (fun y => y * cos y)).
    + apply derivable_pt_lim_sin.
    + apply (derivable_pt_lim_mult id cos);
        [apply derivable_pt_lim_id|apply derivable_pt_lim_cos].
  - cbn beta in E. rewrite sin_0, Rmult_0_l in E.
    assert (0 < sin c) by (apply sin_gt_0; lra).
    assert (0 <= c * sin c * (x - 0)).
    { apply Rmult_le_pos; [apply Rmult_le_pos; lra|lra]. }
    lra.
Qed.

(** A factor squeezed to one does not change the derivative of a function
    that vanishes at the point. *)
Lemma deriv_squeeze f g t d :
  g t = 0 -> derivable_pt_lim g t d ->
  (forall eps, 0 < eps -> exists del, 0 < del /\
     forall s, Rabs (s - t) < del -> Rabs (f s - 1) < eps) ->
  derivable_pt_lim (fun s => f s * g s) t d.
Proof.
  intros G0 Gd Hf eps Heps.
  assert (K : 0 < eps / 2 / (Rabs d + 1)).
  { apply Rdiv_lt_0_compat; [lra|]. pose proof (Rabs_pos d). lra. }
  destruct (Hf (Rmin 1 (eps / 2 / (Rabs d + 1)))) as (d1 & D1 & F).
  { apply Rmin_glb_lt; lra. }
  destruct (Gd (Rmin 1 (eps / 4))) as (d2 & Gl).
  { apply Rmin_glb_lt; lra. }
  assert (D : 0 < Rmin d1 (pos d2)).
  { apply Rmin_glb_lt; [exact D1|apply cond_pos]. }
  exists (mkposreal _ D). intros h H0 Hh. cbn [pos] in Hh.
  assert (H1 : Rabs h < d1) by (eapply Rlt_le_trans; [exact Hh|apply Rmin_l]).
  assert (H2 : Rabs h < d2) by (eapply Rlt_le_trans; [exact Hh|apply Rmin_r]).
  specialize (Gl h H0 H2). specialize (F (t + h)).
  replace (t + h - t) with h in F by ring. specialize (F H1).
  rewrite G0 in *. rewrite Rmult_0_r, Rminus_0_r.
  rewrite Rminus_0_r in Gl.
  set (x := f (t + h)) in *. set (y := g (t + h) / h) in *.
  replace (x * g (t + h) / h - d) with (x * (y - d) + (x - 1) * d)
    by (unfold y; field; exact H0).
  assert (X1 : Rabs (x - 1) < 1) by (eapply Rlt_le_trans; [exact F|apply Rmin_l]).
  assert (X2 : Rabs (x - 1) < eps / 2 / (Rabs d + 1))
    by (eapply Rlt_le_trans; [exact F|apply Rmin_r]).
  assert (Y2 : Rabs (y - d) < eps / 4)
    by (eapply Rlt_le_trans; [exact Gl|apply Rmin_r]).
  eapply Rle_lt_trans; [apply Rabs_triang|]. rewrite !Rabs_mult.
  assert (X3 : Rabs x < 2).
  { replace x with (1 + (x - 1)) by ring.
    eapply Rle_lt_trans; [apply Rabs_triang|]. rewrite Rabs_R1. lra. }
  assert (A : Rabs x * Rabs (y - d) <= 2 * (eps / 4)).
  { apply Rmult_le_compat; try apply Rabs_pos; lra. }
  assert (B : Rabs (x - 1) * Rabs d < eps / 2).
  { pose proof (Rabs_pos d) as P. pose proof (Rabs_pos (x - 1)).
    apply Rle_lt_trans with (Rabs (x - 1) * (Rabs d + 1)); [nra|].
    apply (Rmult_lt_reg_r (/ (Rabs d + 1))); [apply Rinv_0_lt_compat; lra|].
    replace (Rabs (x - 1) * (Rabs d + 1) * / (Rabs d + 1)) with (Rabs (x - 1))
      by (field; lra). exact X2. }
  lra.
Qed.

Lemma deriv_continuous f t d : derivable_pt_lim f t d ->
  forall eps, 0 < eps -> exists del, 0 < del /\
    forall s, Rabs (s - t) < del -> Rabs (f s - f t) < eps.
Proof.
  intros D eps He.
  assert (C : continuity_pt f t).
  { apply derivable_continuous_pt. exists d. exact D. }
  destruct (C eps He) as (del & Dp & F).
  exists del. split; [exact Dp|]. intros s Hs.
  destruct (Req_dec s t) as [-> | N].
  - rewrite Rminus_eq_0, Rabs_R0. exact He.
  - apply (F s). split; [split; [exact I|intros E; apply N; symmetry; exact E]|exact Hs].
Qed.

Lemma deriv_acos c t d : derivable_pt_lim c t d -> -1 < c t < 1 ->
  derivable_pt_lim (fun s => acos (c s)) t (- d / sqrt (1 - c t * c t)).
Proof.
  intros D Hr.
  assert (S : 0 < sqrt (1 - c t * c t)) by (apply sqrt_lt_R0; nra).
  replace (- d / sqrt (1 - c t * c t))
    with (-1 / sqrt (1 - Rsqr (c t)) * d) by (unfold Rsqr; field; lra).
  apply (derivable_pt_lim_comp c acos); [exact D|].
  rewrite <- (derive_pt_acos (c t) Hr).
  destruct (derivable_pt_acos (c t) Hr) as [l Hl]. exact Hl.
Qed.

(* ---------------------------------------------------------------- *)
(** ** Angle and axis of a rotation *)
Lemma rot_angle m : is_rot m ->
  vdot (axis (matToAA m)) (axis (matToAA m)) = 1 /\
  0 <= ang (matToAA m) <= PI /\
  aaToMat (matToAA m) = m /\
  cos (ang (matToAA m)) = (mtr m - 1) / 2 /\
  vee m = vscal (sin (ang (matToAA m))) (axis (matToAA m)).
Proof.
  intros Hr. destruct (utheta_range m Hr) as (U & B & E & _).
  unfold matrixToUTheta in *. unfold unit_axis in U.
  split; [exact U|]. split; [exact B|]. split; [exact E|].
  set (a := matToAA m) in *. clearbody a. subst m.
  destruct a as [th [x y z]]. unfold vdot in U. gcbn.
  unfold mtr, vee, vscal, aaToMat. gcbn. cbv zeta. unfold vscal. gcbn.
  split; [|f_equal; field].
  replace (((1 - cos th) * x * x + cos th + ((1 - cos th) * y * y + cos th) +
    ((1 - cos th) * z * z + cos th) - 1) / 2)
    with (((1 - cos th) * (x * x + y * y + z * z) + 3 * cos th - 1) / 2) by field.
  rewrite U. field.
Qed.

(** The ratio of an angle to its sine. *)
Definition kf (a : R) : R := if Req_EM_T a 0 then 1 else a / sin a.

Lemma rotvec_kf m : is_rot m -> ang (matToAA m) < PI ->
  rotvec m = vscal (kf (ang (matToAA m))) (vee m).
Proof.
  intros Hr Hp. destruct (rot_angle m Hr) as (_ & [B _] & _ & _ & ->).
  unfold rotvec, kf. destruct (Req_EM_T _ 0) as [-> | N].
  - rewrite sin_0. destruct (axis _). unfold vscal. gcbn. f_equal; ring.
  - assert (0 < sin (ang (matToAA m))) by (apply sin_gt_0; lra).
    destruct (axis _). unfold vscal. gcbn. f_equal; field; lra.
Qed.

Lemma kf_bounds th : 0 <= th < PI / 2 -> 1 <= kf th <= / cos th.
Proof.
  intros [A B]. unfold kf. destruct (Req_EM_T th 0) as [-> | N].
  - rewrite cos_0, Rinv_1. lra.
  - assert (S : 0 < sin th) by (apply sin_gt_0; lra).
    assert (C : 0 < cos th) by (apply cos_gt_0; lra).
    pose proof (sin_lt_x th ltac:(lra)) as L.
    pose proof (x_cos_le_sin th ltac:(lra)) as M.
    split.
    + apply (Rmult_le_reg_r (sin th)); [exact S|].
      replace (th / sin th * sin th) with th by (field; lra). lra.
    + apply (Rmult_le_reg_r (sin th * cos th)); [apply Rmult_lt_0_compat; assumption|].
      replace (th / sin th * (sin th * cos th)) with (th * cos th) by (field; lra).
      replace (/ cos th * (sin th * cos th)) with (sin th) by (field; lra). exact M.
Qed.

Lemma angle_acos m : is_rot m -> ang (matToAA m) = acos ((mtr m - 1) / 2).
Proof.
  intros Hr. destruct (rot_angle m Hr) as (_ & B & _ & C & _).
  rewrite <- C. symmetry. apply acos_cos, B.
Qed.

Lemma cos_small th : 0 <= th <= PI -> 0 < cos th -> th < PI / 2.
Proof.
  intros [A B] C. destruct (Rlt_le_dec th (PI / 2)) as [H|H]; [exact H|].
  assert (cos th <= 0); [|lra]. apply cos_le_0; lra.
Qed.

Lemma cos_gt_m1 th : 0 <= th <= PI -> -1 < cos th -> th < PI.
Proof.
  intros [A B] C. destruct (Rle_lt_or_eq_dec _ _ B) as [H|H]; [exact H|].
  subst th. rewrite cos_PI in C. lra.
Qed.

Lemma cos_lt_1 th : 0 < th <= PI -> cos th < 1.
Proof.
  intros [A B]. rewrite <- cos_0. apply cos_decreasing_1; lra.
Qed.

Lemma cos_m1_lt th : 0 <= th < PI -> -1 < cos th.
Proof.
  intros [A B]. rewrite <- cos_PI. apply cos_decreasing_1; lra.
Qed.

(* ---------------------------------------------------------------- *)
(** ** Derivative of the rotation vector *)
Lemma deriv_half f g t a b : derivable_pt_lim f t a -> derivable_pt_lim g t b ->
  derivable_pt_lim (fun s => (f s - g s) / 2) t ((a - b) / 2).
Proof.
  intros A B.
  replace ((a - b) / 2) with ((a - b) * / 2 + (f t - g t) * 0) by field.
  apply (derivable_pt_lim_mult (fun s => f s - g s) (fct_cte (/ 2))).
  - apply derivable_pt_lim_minus; assumption.
  - apply derivable_pt_lim_const.
Qed.

Lemma vee_deriv Rt t d : mderiv Rt t d -> vderiv (fun s => vee (Rt s)) t (vee d).
Proof.
  intros (A & B & C & D & E & F & G & I & J). unfold vee, vderiv. gcbn.
  repeat split; apply deriv_half; assumption.
Qed.

Lemma mtr_deriv Rt t d : mderiv Rt t d ->
  derivable_pt_lim (fun s => (mtr (Rt s) - 1) / 2) t (mtr d / 2).
Proof.
  intros (A & B & C & D & E & F & G & I & J). unfold mtr.
  replace ((m00 d + m11 d + m22 d) / 2) with ((m00 d + m11 d + m22 d - 0) / 2) by field.
  apply (deriv_half (fun s => m00 (Rt s) + m11 (Rt s) + m22 (Rt s)) (fct_cte 1)).
  - apply (derivable_pt_lim_plus (fun s => m00 (Rt s) + m11 (Rt s))); [|exact J].
    apply derivable_pt_lim_plus; assumption.
  - apply derivable_pt_lim_const.
Qed.

Lemma vderiv_ext f g t a b d : a < t < b ->
  (forall s, a < s < b -> f s = g s) -> vderiv f t d -> vderiv g t d.
Proof.
  intros Ht E (A & B & C).
  repeat split; (eapply derivable_pt_lim_locally_ext; [exact Ht| |eassumption]);
    intros z Hz; cbn beta; now rewrite (E z Hz).
Qed.

Lemma near_interval (P : R -> Prop) t : (exists del, 0 < del /\
    forall s, Rabs (s - t) < del -> P s) ->
  exists a b, a < t < b /\ forall s, a < s < b -> P s.
Proof.
  intros (del & D & F). exists (t - del), (t + del). split; [lra|].
  intros s Hs. apply F. apply Rabs_def1; lra.
Qed.

(** The pieces of the derivative at a non-zero angle. *)
Lemma vee_rate th u w : vdot u u = 1 ->
  vee (mmul (aaToMat (AA th u)) (skew w))
  = vadd (vscal ((1 + cos th) / 2) w)
      (vadd (vscal (sin th / 2) (cross u w))
            (vscal (- ((1 - cos th) / 2 * vdot u w)) u)).
Proof.
  intros U. unfold aaToMat. set (s := sin _). set (c := cos _).
  destruct u as [x y z], w as [p q r]. unfold vdot in *. gcbn.
  fold s c. clearbody s c.
  unfold vee, mmul, skew, vadd, vscal, cross. gcbn.
  f_equal.
  - apply Rminus_diag_uniq.
    transitivity ((1 - c) / 2 * p * (x * x + y * y + z * z - 1)); [field|rewrite U; ring].
  - apply Rminus_diag_uniq.
    transitivity ((1 - c) / 2 * q * (x * x + y * y + z * z - 1)); [field|rewrite U; ring].
  - apply Rminus_diag_uniq.
    transitivity ((1 - c) / 2 * r * (x * x + y * y + z * z - 1)); [field|rewrite U; ring].
Qed.

Lemma mtr_rate th u w : mtr (mmul (aaToMat (AA th u)) (skew w)) / 2
  = - (sin th * vdot u w).
Proof.
  unfold aaToMat. set (s := sin _). set (c := cos _).
  destruct u as [x y z], w as [p q r]. unfold vdot. gcbn. fold s c. clearbody s c.
  unfold mtr, mmul, skew, vscal. gcbn. field.
Qed.

Lemma skew_sq u w : vdot u u = 1 ->
  mapp (mmul (skew u) (skew u)) w = vsub (vscal (vdot u w) u) w.
Proof.
  intros U. destruct u as [x y z], w as [p q r]. unfold vdot in *. gcbn.
  unfold mapp, mmul, skew, vsub, vscal. gcbn.
  f_equal; apply Rminus_diag_uniq.
  - transitivity (p * (1 - (x * x + y * y + z * z))); [ring|rewrite U; ring].
  - transitivity (q * (1 - (x * x + y * y + z * z))); [ring|rewrite U; ring].
  - transitivity (r * (1 - (x * x + y * y + z * z))); [ring|rewrite U; ring].
Qed.

Lemma vec3_ext a b : vx a = vx b -> vy a = vy b -> vz a = vz b -> a = b.
Proof. destruct a, b; cbn; intros; subst; reflexivity. Qed.

Lemma half_angle th : 0 < th < PI ->
  sin th / (2 * th * (1 - cos th)) = (1 + cos th) / (2 * th * sin th).
Proof.
  intros Hth. assert (S : 0 < sin th) by (apply sin_gt_0; lra).
  pose proof (cos_lt_1 th ltac:(lra)) as C1.
  pose proof (sin2_cos2 th) as T. unfold Rsqr in T.
  apply (Rmult_eq_reg_r (2 * th * (1 - cos th) * sin th)).
  - transitivity (sin th * sin th); [field; repeat split; lra|].
    transitivity ((1 + cos th) * (1 - cos th)); [lra|field; repeat split; lra].
  - apply Rmult_integral_contrapositive_currified; [|lra].
    apply Rmult_integral_contrapositive_currified; lra.
Qed.

Lemma skew_vscal k u : skew (vscal k u) = mscal k (skew u).
Proof. destruct u. unfold skew, vscal, mscal. gcbn. f_equal; ring. Qed.
Lemma mapp_madd a b w : mapp (madd a b) w = vadd (mapp a w) (mapp b w).
Proof. destruct a, b, w. unfold mapp, madd, vadd. gcbn. f_equal; ring. Qed.
Lemma mapp_mscal k a w : mapp (mscal k a) w = vscal k (mapp a w).
Proof. destruct a, w. unfold mapp, mscal, vscal. gcbn. f_equal; ring. Qed.
Lemma mmul_mscal_l k a b : mmul (mscal k a) b = mscal k (mmul a b).
Proof. destruct a, b. unfold mmul, mscal. gcbn. f_equal; ring. Qed.
Lemma mmul_mscal_r k a b : mmul a (mscal k b) = mscal k (mmul a b).
Proof. destruct a, b. unfold mmul, mscal. gcbn. f_equal; ring. Qed.

(** [jlog] in terms of the angle and the axis. *)
Lemma jlog_aa th u w : 0 < th -> vdot u u = 1 ->
  mapp (jlog (vscal th u)) w =
  vadd w (vadd (vscal (th / 2) (cross u w))
    (vscal (1 - th * sin th / (2 * (1 - cos th)))
           (vsub (vscal (vdot u w) u) w))).
Proof.
  intros Hth U. unfold jlog. rewrite (vnorm_vscal_unit th u) by (try exact U; lra).
  destruct (Req_EM_T th 0) as [E|_]; [lra|].
  rewrite <- (skew_sq u w U).
  set (k := sin th / (2 * th * (1 - cos th))).
  assert (K : 1 / (th * th) - k = (1 - th * sin th / (2 * (1 - cos th))) / (th * th)).
  { unfold k. destruct (Req_dec (1 - cos th) 0) as [E|N].
    - rewrite E, !Rmult_0_r. unfold Rdiv. rewrite Rinv_0. ring.
    - field. lra. }
  rewrite K. set (a := 1 - th * sin th / (2 * (1 - cos th))). clearbody a. clear K k.
  rewrite skew_vscal, !mapp_madd, !mapp_mscal, !mmul_mscal_l, !mmul_mscal_r, !mapp_mscal,
    mapp_id, skew_app.
  set (q := mapp _ w). clearbody q.
  apply vec3_ext; unfold vadd, vscal; gcbn; field; lra.
Qed.

Lemma rodrigues_identity th u w : 0 < th < PI -> vdot u u = 1 ->
  let A := aaToMat (AA th u) in
  let dth := - (mtr (mmul A (skew w)) / 2) / sin th in
  vadd (vscal (dth / sin th - th * (dth * cos th) / (sin th * sin th))
              (vscal (sin th) u))
       (vscal (th / sin th) (vee (mmul A (skew w))))
  = mapp (jlog (vscal th u)) w.
Proof.
  intros Hth U. cbv zeta.
  assert (S : 0 < sin th) by (apply sin_gt_0; lra).
  rewrite mtr_rate, (vee_rate th u w U), jlog_aa by (try exact U; lra).
  pose proof (half_angle th Hth) as K. pose proof (cos_lt_1 th ltac:(lra)) as C1.
  assert (K2 : th * sin th / (2 * (1 - cos th)) = th * (1 + cos th) / (2 * sin th)).
  { transitivity (th * th * (sin th / (2 * th * (1 - cos th)))); [field; lra|].
    rewrite K. field. lra. }
  rewrite K2. clear K K2.
  set (d := vdot u w). set (cr := cross u w). clearbody d cr.
  set (s := sin th) in *. set (c := cos th) in *. clearbody s c.
  apply vec3_ext; unfold vadd, vscal, vsub; gcbn; field; lra.
Qed.

Lemma rot_zero_angle m : is_rot m -> ang (matToAA m) = 0 -> m = mid.
Proof.
  intros Hr E. destruct (rot_angle m Hr) as (_ & _ & <- & _).
  destruct (matToAA m) as [t [x y z]]. gcbn. subst t.
  unfold aaToMat, vscal, mid. gcbn. rewrite cos_0, sin_0. f_equal; ring.
Qed.

Lemma rotvec_id : rotvec mid = v0.
Proof.
  destruct (rot_angle mid rot_id) as (_ & B & _ & C & _).
  assert (E : ang (matToAA mid) = 0).
  { rewrite (angle_acos mid rot_id). unfold mtr, mid. gcbn.
    replace ((1 + 1 + 1 - 1) / 2) with (cos 0) by (rewrite cos_0; field).
    apply acos_cos. pose proof PI_RGT_0. lra. }
  unfold rotvec. rewrite E. destruct (axis _). unfold vscal, v0. gcbn. f_equal; ring.
Qed.

Lemma deriv_mult f g t a b : derivable_pt_lim f t a -> derivable_pt_lim g t b ->
  derivable_pt_lim (fun s => f s * g s) t (a * g t + f t * b).
Proof. intros A B. exact (derivable_pt_lim_mult f g t a b A B). Qed.

Lemma sqrt_sin th : 0 <= th <= PI -> sqrt (1 - cos th * cos th) = sin th.
Proof.
  intros B. pose proof (sin2_cos2 th) as T. unfold Rsqr in T.
  replace (1 - cos th * cos th) with (sin th * sin th) by lra.
  apply sqrt_square, sin_ge_0; lra.
Qed.

(** The rotation vector of a frame moving with body angular velocity [w] has
    the derivative [jlog e w], as long as the angle is below a half turn. *)
Theorem rotvec_deriv (Rt : R -> mat3) t w :
  (forall s, is_rot (Rt s)) ->
  mderiv Rt t (mmul (Rt t) (skew w)) ->
  ang (matToAA (Rt t)) < PI ->
  vderiv (fun s => rotvec (Rt s)) t (mapp (jlog (rotvec (Rt t))) w).
Proof.
  intros Hr HD Hp.
  pose proof (vee_deriv _ _ _ HD) as (DV0 & DV1 & DV2).
  pose proof (mtr_deriv _ _ _ HD) as DC.
  set (c := fun s => (mtr (Rt s) - 1) / 2) in *.
  assert (Ec : forall s, cos (ang (matToAA (Rt s))) = c s)
    by (intros s; apply (rot_angle (Rt s) (Hr s))).
  assert (Bs : forall s, 0 <= ang (matToAA (Rt s)) <= PI)
    by (intros s; apply (rot_angle (Rt s) (Hr s))).
  destruct (rot_angle (Rt t) (Hr t)) as (U & [B0 B1] & EM & _ & EV).
  set (th := ang (matToAA (Rt t))) in *.
  assert (Ct : -1 < c t) by (rewrite <- Ec; apply cos_m1_lt; fold th; lra).
  (* locally the angle stays below a half turn *)
  destruct (near_interval (fun s => rotvec (Rt s)
      = vscal (kf (ang (matToAA (Rt s)))) (vee (Rt s))) t) as (a & b & Hab & Eab).
  { destruct (deriv_continuous c t _ DC (c t + 1)) as (del & Dp & F); [lra|].
    exists del. split; [exact Dp|]. intros s Hs. specialize (F s Hs).
    apply rotvec_kf; [apply Hr|]. apply cos_gt_m1; [apply Bs|].
    rewrite Ec. apply Rabs_def2 in F. lra. }
  destruct (Req_EM_T th 0) as [Z|Z].
  - assert (Em : Rt t = mid) by (apply rot_zero_angle; [apply Hr|exact Z]).
    assert (Ev : vee (Rt t) = v0).
    { rewrite Em. unfold vee, mid, v0. gcbn. f_equal; field. }
    assert (Ed : mapp (jlog (rotvec (Rt t))) w = vee (mmul (Rt t) (skew w))).
    { rewrite Em, rotvec_id. unfold jlog, vnorm. 
      replace (vdot v0 v0) with 0 by (unfold vdot, v0; gcbn; ring). rewrite sqrt_0.
      destruct (Req_EM_T 0 0); [|lra]. rewrite mapp_id, mmul_1_l.
      destruct w. unfold vee, skew. gcbn. f_equal; field. }
    rewrite Ed.
    apply (vderiv_ext (fun s => vscal (kf (ang (matToAA (Rt s)))) (vee (Rt s)))
             _ t a b _ Hab).
    { intros s Hs. symmetry. apply Eab, Hs. }
    assert (SQ : forall eps, 0 < eps -> exists del, 0 < del /\
       forall s, Rabs (s - t) < del -> Rabs (kf (ang (matToAA (Rt s))) - 1) < eps).
    { intros eps He.
      destruct (deriv_continuous c t _ DC (Rmin (1 / 2) (eps / 2))) as (del & Dp & F).
      { apply Rmin_glb_lt; lra. }
      exists del. split; [exact Dp|]. intros s Hs. specialize (F s Hs).
      assert (C1 : c t = 1) by (rewrite <- Ec; fold th; rewrite Z; apply cos_0).
      rewrite C1 in F.
      assert (F1 : Rabs (c s - 1) < 1 / 2) by (eapply Rlt_le_trans; [exact F|apply Rmin_l]).
      assert (F2 : Rabs (c s - 1) < eps / 2) by (eapply Rlt_le_trans; [exact F|apply Rmin_r]).
      apply Rabs_def2 in F1. apply Rabs_def2 in F2.
      assert (Q : ang (matToAA (Rt s)) < PI / 2).
      { apply cos_small; [apply Bs|rewrite Ec; lra]. }
      destruct (kf_bounds (ang (matToAA (Rt s)))) as [L1 L2].
      { split; [apply Bs|exact Q]. }
      rewrite Ec in L2.
      assert (L3 : / c s - 1 < eps).
      { apply (Rmult_lt_reg_r (c s)); [lra|].
        replace ((/ c s - 1) * c s) with (1 - c s) by (field; lra). nra. }
      apply Rabs_def1; lra. }
    repeat split; unfold vscal; gcbn.
    + apply (deriv_squeeze _ (fun s => vx (vee (Rt s)))); [now rewrite Ev|exact DV0|exact SQ].
    + apply (deriv_squeeze _ (fun s => vy (vee (Rt s)))); [now rewrite Ev|exact DV1|exact SQ].
    + apply (deriv_squeeze _ (fun s => vz (vee (Rt s)))); [now rewrite Ev|exact DV2|exact SQ].
  - assert (S : 0 < sin th) by (apply sin_gt_0; lra).
    assert (Ct1 : c t < 1) by (rewrite <- Ec; apply cos_lt_1; fold th; lra).
    destruct (near_interval (fun s => rotvec (Rt s)
      = vscal (acos (c s) / sqrt (1 - c s * c s)) (vee (Rt s))) t)
      as (a' & b' & Hab' & Eab').
    { destruct (deriv_continuous c t _ DC (Rmin (c t + 1) (1 - c t))) as (del & Dp & F).
      { apply Rmin_glb_lt; lra. }
      exists del. split; [exact Dp|]. intros s Hs. specialize (F s Hs).
      assert (F1 : Rabs (c s - c t) < c t + 1) by (eapply Rlt_le_trans; [exact F|apply Rmin_l]).
      assert (F2 : Rabs (c s - c t) < 1 - c t) by (eapply Rlt_le_trans; [exact F|apply Rmin_r]).
      apply Rabs_def2 in F1. apply Rabs_def2 in F2.
      rewrite rotvec_kf; [|apply Hr|apply cos_gt_m1; [apply Bs|rewrite Ec; lra]].
      f_equal. unfold kf. destruct (Req_EM_T _ 0) as [E|E].
      - exfalso. pose proof (Ec s) as Q. rewrite E, cos_0 in Q. lra.
      - rewrite <- Ec, (sqrt_sin _ (Bs s)). f_equal. symmetry. apply acos_cos, Bs. }
    apply (vderiv_ext (fun s => vscal (acos (c s) / sqrt (1 - c s * c s)) (vee (Rt s)))
             _ t a' b' _ Hab').
    { intros s Hs. symmetry. apply Eab', Hs. }
    set (dc := mtr (mmul (Rt t) (skew w)) / 2) in *.
    set (dth := - dc / sin th).
    assert (Eth : acos (c t) = th) by (rewrite <- Ec; apply acos_cos; fold th; lra).
    assert (Est : sqrt (1 - c t * c t) = sin th)
      by (rewrite <- Ec; apply sqrt_sin; fold th; lra).
    assert (Ect : c t = cos th) by (symmetry; apply Ec).
    assert (DA : derivable_pt_lim (fun s => acos (c s)) t dth).
    { unfold dth. rewrite <- Est. apply deriv_acos; [exact DC|lra]. }
    assert (DI : derivable_pt_lim (fun s => / sqrt (1 - c s * c s)) t
                   (- (dth * cos th) / (sin th * sin th))).
    { assert (D1 : derivable_pt_lim (fun s => 1 - c s * c s) t (0 - (dc * c t + c t * dc))).
      { apply (derivable_pt_lim_minus (fct_cte 1) (fun s => c s * c s));
          [apply derivable_pt_lim_const|apply deriv_mult; exact DC]. }
      assert (P : 0 < 1 - c t * c t) by nra.
      assert (D2 : derivable_pt_lim (fun s => sqrt (1 - c s * c s)) t
                 (/ (2 * sqrt (1 - c t * c t)) * (0 - (dc * c t + c t * dc)))).
      { apply (derivable_pt_lim_comp (fun s => 1 - c s * c s) sqrt); [exact D1|].
        apply derivable_pt_lim_sqrt, P. }
      assert (D3 : derivable_pt_lim (fun s => 1 / sqrt (1 - c s * c s)) t
          ((0 * sqrt (1 - c t * c t)
            - / (2 * sqrt (1 - c t * c t)) * (0 - (dc * c t + c t * dc)) * 1)
           / Rsqr (sqrt (1 - c t * c t)))).
      { apply (derivable_pt_lim_div (fct_cte 1) (fun s => sqrt (1 - c s * c s)));
          [apply derivable_pt_lim_const|exact D2|]. rewrite Est. lra. }
      replace (- (dth * cos th) / (sin th * sin th)) with
         ((0 * sqrt (1 - c t * c t)
            - / (2 * sqrt (1 - c t * c t)) * (0 - (dc * c t + c t * dc)) * 1)
           / Rsqr (sqrt (1 - c t * c t))).
      2: { rewrite Est, Ect. unfold Rsqr, dth. field. lra. }
      eapply derivable_pt_lim_ext; [|exact D3]. intros z. cbn beta. unfold Rdiv. ring. }
    assert (DK : derivable_pt_lim (fun s => acos (c s) / sqrt (1 - c s * c s)) t
                   (dth / sin th - th * (dth * cos th) / (sin th * sin th))).
    { replace (dth / sin th - th * (dth * cos th) / (sin th * sin th))
        with (dth * / sqrt (1 - c t * c t)
              + acos (c t) * (- (dth * cos th) / (sin th * sin th))).
      2: { rewrite Est, Eth. field. lra. }
      apply (deriv_mult (fun s => acos (c s)) (fun s => / sqrt (1 - c s * c s)));
        assumption. }
    assert (Er : mapp (jlog (rotvec (Rt t))) w
      = vadd (vscal (dth / sin th - th * (dth * cos th) / (sin th * sin th))
               (vee (Rt t)))
             (vscal (th / sin th) (vee (mmul (Rt t) (skew w))))).
    { unfold rotvec. fold th. rewrite <- (rodrigues_identity th _ w ltac:(lra) U).
      rewrite EV. unfold dth, dc.
      assert (EA : AA th (axis (matToAA (Rt t))) = matToAA (Rt t))
        by (unfold th; destruct (matToAA (Rt t)); reflexivity).
      rewrite EA, EM. reflexivity. }
    rewrite Er.
    unfold vderiv, vadd, vscal. gcbn.
    assert (Ek : acos (c t) / sqrt (1 - c t * c t) = th / sin th) by now rewrite Eth, Est.
    rewrite <- Ek.
    split; [|split].
    + exact (deriv_mult _ (fun s => vx (vee (Rt s))) t _ _ DK DV0).
    + exact (deriv_mult _ (fun s => vy (vee (Rt s))) t _ _ DK DV1).
    + exact (deriv_mult _ (fun s => vz (vee (Rt s))) t _ _ DK DV2).
Qed.

(* ---------------------------------------------------------------- *)
(** ** The right jacobian and its inverse *)
Lemma jexp_aa th u w : 0 < th -> vdot u u = 1 ->
  mapp (jexp (vscal th u)) w =
  vadd w (vadd (vscal (- ((1 - cos th) / th)) (cross u w))
    (vscal ((th - sin th) / th) (vsub (vscal (vdot u w) u) w))).
Proof.
  intros Hth U. unfold jexp. rewrite (vnorm_vscal_unit th u) by (try exact U; lra).
  destruct (Req_EM_T th 0) as [E|_]; [lra|].
  rewrite <- (skew_sq u w U).
  rewrite skew_vscal, !mapp_madd, !mapp_mscal, !mmul_mscal_l, !mmul_mscal_r, !mapp_mscal,
    mapp_id, skew_app.
  set (q := mapp _ w). clearbody q.
  apply vec3_ext; unfold vadd, vscal; gcbn; field; lra.
Qed.

Lemma aa_of_vec e : vnorm e <> 0 ->
  exists th u, 0 < th /\ vdot u u = 1 /\ e = vscal th u /\ vnorm e = th.
Proof.
  intros N. set (th := vnorm e) in *.
  assert (P : 0 < th) by (pose proof (sqrt_pos (vdot e e)); unfold th, vnorm in *; lra).
  assert (Q : th * th = vdot e e).
  { unfold th, vnorm. apply sqrt_sqrt. destruct e. unfold vdot. gcbn. nra. }
  exists th, (vscal (/ th) e). split; [exact P|]. split; [|split; [|reflexivity]].
  - transitivity (/ th * / th * vdot e e);
      [destruct e; unfold vdot, vscal; gcbn; ring|]. rewrite <- Q. field. lra.
  - destruct e. unfold vscal. gcbn. f_equal; field; lra.
Qed.

Lemma cross_cross u w : vdot u u = 1 ->
  cross u (cross u w) = vsub (vscal (vdot u w) u) w.
Proof.
  intros U. rewrite <- (skew_sq u w U), mapp_mmul, !skew_app. reflexivity.
Qed.

Lemma cross_vadd u a b : cross u (vadd a b) = vadd (cross u a) (cross u b).
Proof. destruct u, a, b. unfold cross, vadd. gcbn. f_equal; ring. Qed.
Lemma cross_vscal k u a : cross u (vscal k a) = vscal k (cross u a).
Proof. destruct u, a. unfold cross, vscal. gcbn. f_equal; ring. Qed.
Lemma vdot_vadd u a b : vdot u (vadd a b) = vdot u a + vdot u b.
Proof. destruct u, a, b. unfold vdot, vadd. gcbn. ring. Qed.
Lemma vdot_vsub u a b : vdot u (vsub a b) = vdot u a - vdot u b.
Proof. destruct u, a, b. unfold vdot, vsub. gcbn. ring. Qed.
Lemma vdot_vscal k u a : vdot u (vscal k a) = k * vdot u a.
Proof. destruct u, a. unfold vdot, vscal. gcbn. ring. Qed.
Lemma vdot_cross u a : vdot u (cross u a) = 0.
Proof. destruct u, a. unfold vdot, cross. gcbn. ring. Qed.
Lemma vdot_vscal_l k u a : vdot (vscal k u) a = k * vdot u a.
Proof. destruct u, a. unfold vdot, vscal. gcbn. ring. Qed.
Lemma cross_self u : cross u u = v0.
Proof. destruct u. unfold cross, v0. gcbn. f_equal; ring. Qed.

Lemma cross_vsub u a b : cross u (vsub a b) = vsub (cross u a) (cross u b).
Proof. destruct u, a, b. unfold cross, vsub. gcbn. f_equal; ring. Qed.

(** Both jacobians preserve the component along the rotation vector. *)
Lemma jlog_along e w : vdot e (mapp (jlog e) w) = vdot e w.
Proof.
  destruct (Req_EM_T (vnorm e) 0) as [E|E].
  - unfold jlog. destruct (Req_EM_T (vnorm e) 0); [|contradiction]. now rewrite mapp_id.
  - destruct (aa_of_vec e E) as (th & u & P & U & -> & _).
    rewrite jlog_aa by assumption.
    rewrite !vdot_vscal_l, !vdot_vadd, !vdot_vscal, vdot_cross, vdot_vsub, vdot_vscal, U.
    ring.
Qed.

Lemma one_minus_cos th : 0 < th < 2 * PI -> 0 < 1 - cos th.
Proof.
  intros [A B]. replace th with (2 * (th / 2)) by field.
  rewrite cos_2a_sin. assert (0 < sin (th / 2)) by (apply sin_gt_0; lra). nra.
Qed.

Lemma jexp_jlog e w : vnorm e < 2 * PI -> mapp (jexp e) (mapp (jlog e) w) = w.
Proof.
  intros Hn. destruct (Req_EM_T (vnorm e) 0) as [E|E].
  - unfold jlog, jexp. destruct (Req_EM_T (vnorm e) 0); [|contradiction].
    now rewrite !mapp_id.
  - destruct (aa_of_vec e E) as (th & u & P & U & -> & En). rewrite En in Hn.
    rewrite jlog_aa, jexp_aa by assumption.
    pose proof (one_minus_cos th ltac:(lra)) as C.
    pose proof (sin2_cos2 th) as T. unfold Rsqr in T.
    rewrite !cross_vadd, !cross_vscal, !cross_vsub, !cross_vscal, cross_self.
    rewrite !(cross_cross u w U).
    rewrite !vdot_vadd, !vdot_vscal, vdot_cross, vdot_vsub, vdot_vscal, U.
    set (d := vdot u w). set (cr := cross u w). clearbody d cr.
    set (s := sin th) in *. set (c := cos th) in *. clearbody s c.
    set (g := 1 - th * s / (2 * (1 - c))).
    assert (A1 : th / 2 * (1 - (th - s) / th) - (1 - c) / th * (1 - g) = 0)
      by (unfold g; field; lra).
    assert (A2 : g * (1 - (th - s) / th) + (th - s) / th - (1 - c) / 2 = 0).
    { unfold g. transitivity ((1 + c) / 2 - s * s / (2 * (1 - c))); [field; lra|].
      replace (s * s) with ((1 - c) * (1 + c)) by lra. field. lra. }
    clearbody g.
    transitivity (vadd w (vadd
      (vscal (th / 2 * (1 - (th - s) / th) - (1 - c) / th * (1 - g)) cr)
      (vscal (g * (1 - (th - s) / th) + (th - s) / th - (1 - c) / 2)
             (vsub (vscal d u) w)))).
    + apply vec3_ext; unfold vadd, vscal, vsub, v0; gcbn; field; lra.
    + rewrite A1, A2. apply vec3_ext; unfold vadd, vscal; gcbn; ring.
Qed.

Lemma jlog_jexp e w : vnorm e < 2 * PI -> mapp (jlog e) (mapp (jexp e) w) = w.
Proof.
  intros Hn. destruct (Req_EM_T (vnorm e) 0) as [E|E].
  - unfold jlog, jexp. destruct (Req_EM_T (vnorm e) 0); [|contradiction].
    now rewrite !mapp_id.
  - destruct (aa_of_vec e E) as (th & u & P & U & -> & En). rewrite En in Hn.
    rewrite jlog_aa, jexp_aa by assumption.
    pose proof (one_minus_cos th ltac:(lra)) as C.
    pose proof (sin2_cos2 th) as T. unfold Rsqr in T.
    rewrite !cross_vadd, !cross_vscal, !cross_vsub, !cross_vscal, cross_self.
    rewrite !(cross_cross u w U).
    rewrite !vdot_vadd, !vdot_vscal, vdot_cross, vdot_vsub, vdot_vscal, U.
    set (d := vdot u w). set (cr := cross u w). clearbody d cr.
    set (s := sin th) in *. set (c := cos th) in *. clearbody s c.
    set (g := 1 - th * s / (2 * (1 - c))).
    assert (A1 : th / 2 * (1 - (th - s) / th) - (1 - c) / th * (1 - g) = 0)
      by (unfold g; field; lra).
    assert (A2 : g * (1 - (th - s) / th) + (th - s) / th - (1 - c) / 2 = 0).
    { unfold g. transitivity ((1 + c) / 2 - s * s / (2 * (1 - c))); [field; lra|].
      replace (s * s) with ((1 - c) * (1 + c)) by lra. field. lra. }
    clearbody g.
    transitivity (vadd w (vadd
      (vscal (th / 2 * (1 - (th - s) / th) - (1 - c) / th * (1 - g)) cr)
      (vscal (g * (1 - (th - s) / th) + (th - s) / th - (1 - c) / 2)
             (vsub (vscal d u) w)))).
    + apply vec3_ext; unfold vadd, vscal, vsub, v0; gcbn; field; lra.
    + rewrite A1, A2. apply vec3_ext; unfold vadd, vscal; gcbn; ring.
Qed.

Lemma mapp_ext a b : (forall w, mapp a w = mapp b w) -> a = b.
Proof.
  intros E. pose proof (E (V3 1 0 0)) as A. pose proof (E (V3 0 1 0)) as B.
  pose proof (E (V3 0 0 1)) as C. destruct a, b.
  unfold mapp in *. gcbn.
  pose proof (f_equal vx A). pose proof (f_equal vy A). pose proof (f_equal vz A).
  pose proof (f_equal vx B). pose proof (f_equal vy B). pose proof (f_equal vz B).
  pose proof (f_equal vx C). pose proof (f_equal vy C). pose proof (f_equal vz C).
  clear E A B C. gcbn. f_equal; lra.
Qed.

(** The inverse of the right jacobian, as Eigen computes it. *)
Lemma minv_jexp e : vnorm e < 2 * PI -> minv (jexp e) = jlog e.
Proof.
  intros Hn.
  assert (L : mmul (jlog e) (jexp e) = mid).
  { apply mapp_ext. intros w. rewrite mapp_mmul, mapp_id. apply jlog_jexp, Hn. }
  assert (D : mdet (jexp e) <> 0).
  { intros Z. assert (X : mdet (mmul (jlog e) (jexp e)) = mdet mid) by now rewrite L.
    rewrite mdet_mul, Z in X. unfold mdet, mid in X. gcbn. lra. }
  rewrite <- (mmul_1_l (minv (jexp e))), <- L, <- mmul_assoc, (minv_r _ D).
  apply mmul_1_r.
Qed.
