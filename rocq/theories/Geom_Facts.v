(** Algebraic facts about the geometry of Geom_Model. *)
From Coq Require Import String List Arith Lia ZArith Bool Reals Lra Psatz.
From Verif Require Import Base Geom_Model.
Import ListNotations.
Local Open Scope R_scope.

(** A rotation matrix: orthonormal rows and determinant one. *)
Definition is_rot (m : mat3) : Prop := mmul m (mT m) = mid /\ mdet m = 1.

(** A rigid transformation. *)
Definition is_rigid (m : hom) : Prop := is_rot (lin m).

Ltac gdest := repeat match goal with
  | v : vec3 |- _ => destruct v
  | m : mat3 |- _ => destruct m
  | h : hom |- _ => destruct h
  | q : quat |- _ => destruct q
  end.

Ltac gring := intros; gdest; cbv -[Rplus Rmult Rminus Ropp IZR Rinv Rdiv sqrt];
  f_equal; ring.

(* ---------------------------------------------------------------- *)
Lemma mmul_assoc a b c : mmul a (mmul b c) = mmul (mmul a b) c.
Proof. gring. Qed.
Lemma mmul_1_l a : mmul mid a = a.
Proof. gring. Qed.
Lemma mmul_1_r a : mmul a mid = a.
Proof. gring. Qed.
Lemma mmul_mT a b : mT (mmul a b) = mmul (mT b) (mT a).
Proof. gring. Qed.
Lemma mT_mT a : mT (mT a) = a.
Proof. gring. Qed.
Lemma mdet_mul a b : mdet (mmul a b) = mdet a * mdet b.
Proof. intros; gdest; cbv -[Rplus Rmult Rminus Ropp IZR]; ring. Qed.
Lemma mdet_mT a : mdet (mT a) = mdet a.
Proof. intros; gdest; cbv -[Rplus Rmult Rminus Ropp IZR]; ring. Qed.
Lemma madj_mul_l a : mmul (madj a) a = mscal (mdet a) mid.
Proof. gring. Qed.
Lemma madj_mul_r a : mmul a (madj a) = mscal (mdet a) mid.
Proof. gring. Qed.
Lemma mscal_1 a : mscal 1 a = a.
Proof. gring. Qed.
Lemma mapp_mmul a b v : mapp (mmul a b) v = mapp a (mapp b v).
Proof. gring. Qed.
Lemma mapp_id v : mapp mid v = v.
Proof. gring. Qed.
Lemma mapp_vadd a u v : mapp a (vadd u v) = vadd (mapp a u) (mapp a v).
Proof. gring. Qed.
Lemma mapp_vsub a u v : mapp a (vsub u v) = vsub (mapp a u) (mapp a v).
Proof. gring. Qed.
Lemma mapp_vopp a v : mapp a (vopp v) = vopp (mapp a v).
Proof. gring. Qed.
Lemma mapp_vscal a k v : mapp a (vscal k v) = vscal k (mapp a v).
Proof. gring. Qed.
Lemma mapp_v0 a : mapp a v0 = v0.
Proof. gring. Qed.
Lemma mapp_zero v : mapp mzero v = v0.
Proof. gring. Qed.
Lemma vadd_v0_l v : vadd v0 v = v.
Proof. gring. Qed.
Lemma vadd_v0_r v : vadd v v0 = v.
Proof. gring. Qed.
Lemma vadd_assoc u v w : vadd u (vadd v w) = vadd (vadd u v) w.
Proof. gring. Qed.
Lemma vadd_comm u v : vadd u v = vadd v u.
Proof. gring. Qed.
Lemma vadd_vopp v : vadd v (vopp v) = v0.
Proof. gring. Qed.
Lemma vadd_vopp_l v : vadd (vopp v) v = v0.
Proof. gring. Qed.
Lemma madd_zero_l a : madd mzero a = a.
Proof. gring. Qed.
Lemma madd_zero_r a : madd a mzero = a.
Proof. gring. Qed.
Lemma mmul_zero_l a : mmul mzero a = mzero.
Proof. gring. Qed.
Lemma mmul_zero_r a : mmul a mzero = mzero.
Proof. gring. Qed.
Lemma mmul_madd_r a b c : mmul (madd a b) c = madd (mmul a c) (mmul b c).
Proof. gring. Qed.
Lemma skew_app t v : mapp (skew t) v = cross t v.
Proof. gring. Qed.
Lemma skew_vadd s t : skew (vadd s t) = madd (skew s) (skew t).
Proof. gring. Qed.
Lemma madd_comm a b : madd a b = madd b a.
Proof. gring. Qed.

(* ---------------------------------------------------------------- *)
(** ** Rotations *)
Lemma rot_adj m : is_rot m -> madj m = mT m.
Proof.
  intros [Ho Hd].
  rewrite <- (mmul_1_r (madj m)), <- Ho, mmul_assoc, madj_mul_l, Hd, mscal_1.
  apply mmul_1_l.
Qed.

Lemma rot_inv m : is_rot m -> minv m = mT m.
Proof.
  intros H. unfold minv. rewrite (rot_adj m H). destruct H as [_ Hd].
  rewrite Hd, Rinv_1. apply mscal_1.
Qed.

Lemma rot_mT_l m : is_rot m -> mmul (mT m) m = mid.
Proof.
  intros H. rewrite <- (rot_adj m H), madj_mul_l. destruct H as [_ ->].
  apply mscal_1.
Qed.

Lemma rot_mT_r m : is_rot m -> mmul m (mT m) = mid.
Proof. intros [H _]. exact H. Qed.

Lemma rot_T m : is_rot m -> is_rot (mT m).
Proof.
  intros H. split.
  - rewrite mT_mT. apply rot_mT_l, H.
  - rewrite mdet_mT. apply H.
Qed.

Lemma rot_mul a b : is_rot a -> is_rot b -> is_rot (mmul a b).
Proof.
  intros [Ha Da] [Hb Db]. split.
  - rewrite mmul_mT, mmul_assoc, <- (mmul_assoc a b), Hb, mmul_1_r. exact Ha.
  - rewrite mdet_mul, Da, Db. ring.
Qed.

Lemma rot_id : is_rot mid.
Proof. split; [gring | cbv -[Rplus Rmult Rminus Ropp IZR]; ring]. Qed.

(** The coefficient equations of a rotation: cofactors and norms. *)
Lemma rot_cof m : is_rot m ->
  m11 m * m22 m - m12 m * m21 m = m00 m /\
  m02 m * m21 m - m01 m * m22 m = m10 m /\
  m01 m * m12 m - m02 m * m11 m = m20 m /\
  m12 m * m20 m - m10 m * m22 m = m01 m /\
  m00 m * m22 m - m02 m * m20 m = m11 m /\
  m02 m * m10 m - m00 m * m12 m = m21 m /\
  m10 m * m21 m - m11 m * m20 m = m02 m /\
  m01 m * m20 m - m00 m * m21 m = m12 m /\
  m00 m * m11 m - m01 m * m10 m = m22 m.
Proof.
  intros H. pose proof (rot_adj m H) as E. unfold madj, mT in E.
  injection E; intros; repeat split; assumption.
Qed.

Lemma rot_rows m : is_rot m ->
  m00 m * m00 m + m01 m * m01 m + m02 m * m02 m = 1 /\
  m00 m * m10 m + m01 m * m11 m + m02 m * m12 m = 0 /\
  m00 m * m20 m + m01 m * m21 m + m02 m * m22 m = 0 /\
  m10 m * m10 m + m11 m * m11 m + m12 m * m12 m = 1 /\
  m10 m * m20 m + m11 m * m21 m + m12 m * m22 m = 0 /\
  m20 m * m20 m + m21 m * m21 m + m22 m * m22 m = 1.
Proof.
  intros [E _]. destruct m. cbv -[Rplus Rmult IZR] in E. cbn.
  injection E; intros; repeat split; assumption.
Qed.

Lemma rot_cols m : is_rot m ->
  m00 m * m00 m + m10 m * m10 m + m20 m * m20 m = 1 /\
  m00 m * m01 m + m10 m * m11 m + m20 m * m21 m = 0 /\
  m00 m * m02 m + m10 m * m12 m + m20 m * m22 m = 0 /\
  m01 m * m01 m + m11 m * m11 m + m21 m * m21 m = 1 /\
  m01 m * m02 m + m11 m * m12 m + m21 m * m22 m = 0 /\
  m02 m * m02 m + m12 m * m12 m + m22 m * m22 m = 1.
Proof.
  intros H. pose proof (rot_mT_l m H) as E. destruct m.
  cbv -[Rplus Rmult IZR] in E. cbn.
  injection E; intros; repeat split; assumption.
Qed.

Lemma rot_skew r t : is_rot r -> mmul (skew (mapp r t)) r = mmul r (skew t).
Proof.
  intros H. destruct (rot_cof r H) as (A & B & C & D & E & F & G & I & J).
  destruct r as [a b c d e f g h i]; destruct t as [x y z].
  cbn [m00 m01 m02 m10 m11 m12 m20 m21 m22] in *.
  unfold skew, mmul, mapp.
  cbn [m00 m01 m02 m10 m11 m12 m20 m21 m22 vx vy vz].
  f_equal.
  all: lazymatch goal with |- ?l = ?r => apply Rminus_diag_uniq end.
  - transitivity (y * ((d * h - e * g) - c) * 0 + (- (g * x + h * y + i * z) * d
      + (d * x + e * y + f * z) * g - b * z + c * y)); [ring|].
    rewrite <- D, <- G. ring.
  - transitivity (- (g * x + h * y + i * z) * e
      + (d * x + e * y + f * z) * h + a * z - c * x); [ring|].
    rewrite <- A, <- G. ring.
  - transitivity (- (g * x + h * y + i * z) * f
      + (d * x + e * y + f * z) * i - a * y + b * x); [ring|].
    rewrite <- A, <- D. ring.
  - transitivity ((g * x + h * y + i * z) * a
      - (a * x + b * y + c * z) * g - e * z + f * y); [ring|].
    rewrite <- E, <- I. ring.
  - transitivity ((g * x + h * y + i * z) * b
      - (a * x + b * y + c * z) * h + d * z - f * x); [ring|].
    rewrite <- B, <- I. ring.
  - transitivity ((g * x + h * y + i * z) * c
      - (a * x + b * y + c * z) * i - d * y + e * x); [ring|].
    rewrite <- B, <- E. ring.
  - transitivity (- (d * x + e * y + f * z) * a
      + (a * x + b * y + c * z) * d - h * z + i * y); [ring|].
    rewrite <- F, <- J. ring.
  - transitivity (- (d * x + e * y + f * z) * b
      + (a * x + b * y + c * z) * e + g * z - i * x); [ring|].
    rewrite <- C, <- J. ring.
  - transitivity (- (d * x + e * y + f * z) * c
      + (a * x + b * y + c * z) * f - g * y + h * x); [ring|].
    rewrite <- C, <- F. ring.
Qed.

Lemma rot_cross r u v : is_rot r ->
  mapp r (cross u v) = cross (mapp r u) (mapp r v).
Proof.
  intros H. rewrite <- !skew_app, <- !mapp_mmul, (rot_skew r u H). reflexivity.
Qed.

(** ** Rigid transformations *)
Lemma hmul_assoc a b c : hmul a (hmul b c) = hmul (hmul a b) c.
Proof.
  unfold hmul. cbn [lin trn]. f_equal.
  - apply mmul_assoc.
  - rewrite mapp_vadd, mapp_mmul. symmetry; apply vadd_assoc.
Qed.

Lemma hmul_id_l a : hmul hid a = a.
Proof.
  destruct a as [l t]. unfold hmul, hid. cbn [lin trn].
  now rewrite mmul_1_l, mapp_id, vadd_v0_r.
Qed.

Lemma hmul_id_r a : hmul a hid = a.
Proof.
  destruct a as [l t]. unfold hmul, hid. cbn [lin trn].
  now rewrite mmul_1_r, mapp_v0, vadd_v0_l.
Qed.

Lemma minv_l m : mdet m <> 0 -> mmul (minv m) m = mid.
Proof.
  intros Hd. unfold minv.
  replace (mmul (mscal (/ mdet m) (madj m)) m)
    with (mscal (/ mdet m) (mmul (madj m) m)) by gring.
  rewrite madj_mul_l.
  replace (mscal (/ mdet m) (mscal (mdet m) mid))
    with (mscal (/ mdet m * mdet m) mid) by gring.
  rewrite Rinv_l by exact Hd. apply mscal_1.
Qed.

Lemma minv_r m : mdet m <> 0 -> mmul m (minv m) = mid.
Proof.
  intros Hd. unfold minv.
  replace (mmul m (mscal (/ mdet m) (madj m)))
    with (mscal (/ mdet m) (mmul m (madj m))) by gring.
  rewrite madj_mul_r.
  replace (mscal (/ mdet m) (mscal (mdet m) mid))
    with (mscal (/ mdet m * mdet m) mid) by gring.
  rewrite Rinv_l by exact Hd. apply mscal_1.
Qed.

Lemma hinv_l a : mdet (lin a) <> 0 -> hmul (hinv a) a = hid.
Proof.
  intros Hd. unfold hmul, hinv, hid. cbn [lin trn].
  rewrite (minv_l _ Hd), vadd_vopp. reflexivity.
Qed.

Lemma hinv_r a : mdet (lin a) <> 0 -> hmul a (hinv a) = hid.
Proof.
  intros Hd. unfold hmul, hinv, hid. cbn [lin trn].
  rewrite (minv_r _ Hd), mapp_vopp, <- mapp_mmul, (minv_r _ Hd), mapp_id,
    vadd_vopp_l.
  reflexivity.
Qed.

Lemma rigid_det m : is_rigid m -> mdet (lin m) <> 0.
Proof. intros [_ ->]. lra. Qed.

Lemma rigid_inv a : is_rigid a -> is_rigid (hinv a).
Proof.
  intros H. unfold is_rigid, hinv. cbn [lin]. rewrite (rot_inv _ H).
  apply rot_T, H.
Qed.

Lemma rigid_mul a b : is_rigid a -> is_rigid b -> is_rigid (hmul a b).
Proof. intros Ha Hb. apply rot_mul; assumption. Qed.

(* ---------------------------------------------------------------- *)
(** ** atan2 *)
Lemma atan2_spec y x :
  sqrt (x * x + y * y) * cos (atan2 y x) = x /\
  sqrt (x * x + y * y) * sin (atan2 y x) = y.
Proof.
  assert (Hpos : forall x y, 0 < x ->
    sqrt (x * x + y * y) * cos (atan (y / x)) = x /\
    sqrt (x * x + y * y) * sin (atan (y / x)) = y).
  { clear. intros x y Hx.
    assert (E : sqrt (x * x + y * y) = x * sqrt (1 + (y / x)²)).
    { rewrite <- (sqrt_square x) at 3 by lra.
      rewrite <- sqrt_mult; [|nra|].
      - f_equal. unfold Rsqr. field. lra.
      - pose proof (Rle_0_sqr (y / x)). lra. }
    assert (Hs : 0 < sqrt (1 + (y / x)²)).
    { apply sqrt_lt_R0. pose proof (Rle_0_sqr (y / x)). lra. }
    rewrite E, cos_atan, sin_atan. split; field; repeat split; lra. }
  unfold atan2.
  destruct (Rlt_dec 0 x) as [H|H].
  { apply Hpos, H. }
  destruct (Rlt_dec x 0) as [H'|H'].
  - pose proof (Hpos (- x) (- y) ltac:(lra)) as [C S].
    replace (- x * - x + - y * - y) with (x * x + y * y) in C, S by ring.
    replace (- y / - x) with (y / x) in C, S by (field; lra).
    destruct (Rle_dec 0 y).
    + rewrite neg_cos, neg_sin. split; lra.
    + replace (atan (y / x) - PI) with (- (PI - atan (y / x))) by ring.
      rewrite cos_neg, sin_neg, Rtrigo_facts.cos_pi_minus,
        Rtrigo_facts.sin_pi_minus. split; lra.
  - assert (x = 0) as -> by lra.
    replace (0 * 0 + y * y) with (y * y) by ring.
    destruct (Rlt_dec 0 y).
    + rewrite sqrt_square by lra. rewrite cos_PI2, sin_PI2. split; ring.
    + destruct (Rlt_dec y 0).
      * replace (y * y) with (- y * - y) by ring. rewrite sqrt_square by lra.
        rewrite cos_neg, sin_neg, cos_PI2, sin_PI2. split; ring.
      * assert (y = 0) as -> by lra. rewrite Rmult_0_l, sqrt_0. split; ring.
Qed.

Lemma atan2_unit y x : x * x + y * y = 1 ->
  cos (atan2 y x) = x /\ sin (atan2 y x) = y.
Proof.
  intros E. pose proof (atan2_spec y x) as [C S]. rewrite E, sqrt_1 in C, S.
  split; lra.
Qed.

(** For a positive ordinate and a non-negative abscissa the angle is in
    (0, PI/2]. *)
Lemma atan2_first y x : 0 < y -> 0 <= x -> 0 < atan2 y x <= PI / 2.
Proof.
  intros Hy Hx. unfold atan2. pose proof PI_RGT_0.
  destruct (Rlt_dec 0 x).
  - assert (0 < y / x) by (apply Rdiv_lt_0_compat; lra).
    pose proof (atan_increasing 0 (y / x) ltac:(lra)). rewrite atan_0 in H1.
    pose proof (atan_bound (y / x)). lra.
  - destruct (Rlt_dec x 0); [lra|]. destruct (Rlt_dec 0 y); lra.
Qed.
