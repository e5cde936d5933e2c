(** C63 (second part): conversions of the free flyer, of velocities and of whole configurations. *)
From Coq Require Import String List Arith Lia ZArith Bool Reals Lra Psatz.
From Verif Require Import Base Geom_Model Geom_Facts Geom_Rot Geom_Props Robot_Model Robot_Props RobotBase_Model.
Import ListNotations.
Local Open Scope R_scope.

(** ** Specification: the rotation of roll, pitch and yaw angles (rotation about x, then the fixed
    axes y and z), and the band of pitch angles that the code treats as singular. *)
Definition rpy_rotation (r p y : R) : mat3 :=
  mmul (mmul (axisMat AXIS_Z y) (axisMat AXIS_Y p)) (axisMat AXIS_X r).

(** The pitch of a rotation matrix. *)
Definition pitch (m : mat3) : R := atan2 (- m20 m) (sqrt (m21 m * m21 m + m22 m * m22 m)).
Definition in_band (m : mat3) : Prop := Rabs (Rabs (pitch m) - PI / 2) < 1 / 1000.
Definition vertical (m : mat3) : Prop := m21 m = 0 /\ m22 m = 0.

Lemma atan2_range y x : - PI < atan2 y x <= PI.
Proof.
  unfold atan2. pose proof PI_RGT_0.
  destruct (Rlt_dec 0 x); [pose proof (atan_bound (y / x)); lra|].
  destruct (Rlt_dec x 0).
  - destruct (Rle_dec 0 y).
    + pose proof (atan_bound (y / x)).
      assert (y / x <= 0). { unfold Rdiv. assert (/ x < 0) by now apply Rinv_lt_0_compat. nra. }
      assert (atan (y / x) <= 0). { rewrite <- atan_0. destruct (Req_dec (y / x) 0) as [-> |]; [lra|]. left. apply atan_increasing. lra. }
      lra.
    + pose proof (atan_bound (y / x)).
      assert (0 < y / x). { unfold Rdiv. assert (/ x < 0) by now apply Rinv_lt_0_compat. nra. }
      assert (0 < atan (y / x)). { rewrite <- atan_0. apply atan_increasing. lra. }
      lra.
  - destruct (Rlt_dec 0 y); [lra|]. destruct (Rlt_dec y 0); lra.
Qed.

Lemma sincos_unique s t : - PI < s <= PI -> - PI < t <= PI -> cos s = cos t -> sin s = sin t -> s = t.
Proof.
  intros Hs Ht C S. pose proof PI_RGT_0.
  assert (E : cos (s - t) = 1). { rewrite cos_minus, C, S. pose proof (sin2_cos2 t). unfold Rsqr in *. lra. }
  assert (Z : sin (s - t) = 0). { rewrite sin_minus, C, S. ring. }
  destruct (Rtotal_order s t) as [L|[L|L]]; [|exact L|].
  - exfalso. assert (0 < t - s < 2 * PI) by lra.
    replace (s - t) with (- (t - s)) in * by ring. rewrite cos_neg in E. rewrite sin_neg in Z.
    destruct (Rtotal_order (t - s) PI) as [X|[X|X]].
    + pose proof (sin_gt_0 (t - s)). lra.
    + rewrite X, cos_PI in E. lra.
    + pose proof (sin_lt_0 (t - s)). lra.
  - exfalso. assert (0 < s - t < 2 * PI) by lra.
    destruct (Rtotal_order (s - t) PI) as [X|[X|X]].
    + pose proof (sin_gt_0 (s - t)). lra.
    + rewrite X, cos_PI in E. lra.
    + pose proof (sin_lt_0 (s - t)). lra.
Qed.

Lemma atan2_polar k t : 0 < k -> - PI < t <= PI -> atan2 (k * sin t) (k * cos t) = t.
Proof.
  intros Hk Ht. destruct (atan2_spec (k * sin t) (k * cos t)) as [C S].
  assert (E : sqrt (k * cos t * (k * cos t) + k * sin t * (k * sin t)) = k).
  { replace (k * cos t * (k * cos t) + k * sin t * (k * sin t)) with (k * k).
    - apply sqrt_square. lra.
    - pose proof (sin2_cos2 t) as X. unfold Rsqr in X.
      replace (k * cos t * (k * cos t) + k * sin t * (k * sin t)) with (k * k * (sin t * sin t + cos t * cos t)) by ring.
      rewrite X. ring. }
  rewrite E in C, S. apply sincos_unique; [apply atan2_range|exact Ht| |]; nra.
Qed.

Lemma pitch_facts m : is_rot m ->
  let c := sqrt (m21 m * m21 m + m22 m * m22 m) in
  0 <= c /\ cos (pitch m) = c /\ sin (pitch m) = - m20 m /\ c * c = m21 m * m21 m + m22 m * m22 m /\
  - (PI / 2) <= pitch m <= PI / 2.
Proof.
  intros Hr. cbv zeta. destruct (rot_rows m Hr) as (_ & _ & _ & _ & _ & R5).
  set (c := sqrt (m21 m * m21 m + m22 m * m22 m)).
  assert (C0 : 0 <= c) by apply sqrt_pos.
  assert (CC : c * c = m21 m * m21 m + m22 m * m22 m) by (unfold c; apply sqrt_sqrt; nra).
  destruct (atan2_unit (- m20 m) c) as [A B]; [lra|]. fold c in A.
  unfold pitch. fold c. repeat split; try assumption.
  - pose proof (atan2_range (- m20 m) c). destruct (Rle_dec (- (PI / 2)) (atan2 (- m20 m) c)); [assumption|].
    exfalso. assert (cos (atan2 (- m20 m) c) < 0); [|lra]. rewrite <- cos_neg. apply cos_lt_0; lra.
  - pose proof (atan2_range (- m20 m) c). destruct (Rle_dec (atan2 (- m20 m) c) (PI / 2)); [assumption|].
    exfalso. assert (cos (atan2 (- m20 m) c) < 0); [|lra]. apply cos_lt_0; lra.
Qed.

Lemma vertical_iff m : is_rot m -> (vertical m <-> sqrt (m21 m * m21 m + m22 m * m22 m) = 0).
Proof.
  intros Hr. unfold vertical. split.
  - intros [-> ->]. replace (0 * 0 + 0 * 0) with 0 by ring. apply sqrt_0.
  - intros E. destruct (pitch_facts m Hr) as (_ & _ & _ & CC & _). rewrite E in CC. split; nra.
Qed.

(** ** Base *)

(** Outside the band, and exactly at the vertical, the angles represent the rotation. *)
Theorem base_rotation_exact pos m : is_rot m -> ~ in_band m \/ vertical m ->
  exists r p y, base_se3_to_sot pos m = [vx pos; vy pos; vz pos; r; p; y] /\ rpy_rotation r p y = m.
Proof.
  intros Hr HB. unfold base_se3_to_sot. fold (pitch m).
  destruct (pitch_facts m Hr) as (C0 & CP & SP & CC & _). set (c := sqrt (m21 m * m21 m + m22 m * m22 m)) in *.
  assert (V : vertical m <-> c = 0) by (apply vertical_iff, Hr).
  assert (P0 : c = 0 -> in_band m).
  { intros Ec. unfold in_band, pitch. fold c. rewrite Ec. destruct (rot_rows m Hr) as (_ & _ & _ & _ & _ & R5).
    assert (m20 m * m20 m = 1) by nra. pose proof PI_RGT_0.
    unfold atan2. destruct (Rlt_dec 0 0); [lra|].
    destruct (Rlt_dec 0 (- m20 m)); [rewrite (Rabs_right (PI / 2)) by lra; rewrite Rminus_diag_eq, Rabs_R0 by reflexivity; lra|].
    destruct (Rlt_dec (- m20 m) 0); [|nra].
    rewrite Rabs_Ropp, (Rabs_right (PI / 2)) by lra. rewrite Rminus_diag_eq, Rabs_R0 by reflexivity. lra. }
  fold (in_band m).
  destruct (Rlt_dec (Rabs (Rabs (pitch m) - PI / 2)) (1 / 1000)) as [B|B].
  - assert (Hv : vertical m) by (destruct HB; [contradiction|assumption]).
    do 3 eexists. split; [reflexivity|].
    destruct (rot_cof m Hr) as (Q0&Q1&Q2&Q3&Q4&Q5&Q6&Q7&Q8).
    destruct (rot_rows m Hr) as (R0&R1&R2&R3&R4&R5).
    destruct (rot_cols m Hr) as (L0&L1&L2&L3&L4&L5).
    apply V in Hv. rewrite Hv in *. clear V. destruct (proj2 (vertical_iff m Hr)) as [H1 H2]; [exact Hv|].
    destruct m as [a b d' d e f g h i]. gcbn. clearbody c. rewrite H1, H2 in *.
    destruct (atan2_unit b e) as [A0 A1]; [lra|].
    unfold rpy_rotation, mmul, axisMat. gcbn. rewrite cos_neg, sin_neg, A0, A1, cos_0, sin_0, CP, SP.
    assert (AD : a * a + d * d = 0) by lra.
    assert (a = 0) by (apply Rsqr_0_uniq; unfold Rsqr; nra). assert (d = 0) by (apply Rsqr_0_uniq; unfold Rsqr; nra).
    subst a d. f_equal; try ring; try lra; try nra.
  - assert (Nc : c <> 0) by (intros Ec; apply P0 in Ec; contradiction).
    do 3 eexists. split; [reflexivity|].
    destruct (rot_cof m Hr) as (Q0&Q1&Q2&Q3&Q4&Q5&Q6&Q7&Q8).
    destruct (rot_rows m Hr) as (R0&R1&R2&R3&R4&R5).
    destruct (rot_cols m Hr) as (L0&L1&L2&L3&L4&L5).
    destruct (atan2_spec (m21 m) (m22 m)) as [A0 A1]. destruct (atan2_spec (m10 m) (m00 m)) as [B0 B1].
    replace (m22 m * m22 m + m21 m * m21 m) with (m21 m * m21 m + m22 m * m22 m) in A0, A1 by ring. fold c in A0, A1.
    replace (m00 m * m00 m + m10 m * m10 m) with (m21 m * m21 m + m22 m * m22 m) in B0, B1 by lra. fold c in B0, B1.
    clearbody c. clear V P0 B HB.
    destruct m as [a b d' d e f g h i]. gcbn.
    unfold rpy_rotation, mmul, axisMat. gcbn. rewrite CP, SP.
    set (cr := cos (atan2 h i)) in *. set (sr := sin (atan2 h i)) in *.
    set (cy := cos (atan2 d a)) in *. set (sy := sin (atan2 d a)) in *. clearbody cr sr cy sy.
    assert (K : a * a + d * d = c * c) by lra.
    f_equal.
    + lra.
    + apply (Rmult_eq_reg_l (c * c)); [|apply Rmult_integral_contrapositive; auto].
      transitivity ((c * cy) * (- g) * (c * sr) - (c * sy) * (c * cr)); [ring|]. rewrite A0, A1, B0, B1.
      rewrite <- K.
      replace (a * - g * h) with (a * (a * b + d * e)) by (replace (a * b + d * e) with (- (g * h)) by lra; ring).
      rewrite <- Q8. ring.
    + apply (Rmult_eq_reg_l (c * c)); [|apply Rmult_integral_contrapositive; auto].
      transitivity ((c * cy) * (- g) * (c * cr) + (c * sy) * (c * sr)); [ring|]. rewrite A0, A1, B0, B1.
      rewrite <- K.
      replace (a * - g * i) with (a * (a * d' + d * f)) by (replace (a * d' + d * f) with (- (g * i)) by lra; ring).
      rewrite <- Q5. ring.
    + lra.
    + apply (Rmult_eq_reg_l (c * c)); [|apply Rmult_integral_contrapositive; auto].
      transitivity ((c * sy) * (- g) * (c * sr) + (c * cy) * (c * cr)); [ring|]. rewrite A0, A1, B0, B1.
      rewrite <- K.
      replace (d * - g * h) with (d * (a * b + d * e)) by (replace (a * b + d * e) with (- (g * h)) by lra; ring).
      rewrite <- Q8. ring.
    + apply (Rmult_eq_reg_l (c * c)); [|apply Rmult_integral_contrapositive; auto].
      transitivity ((c * sy) * (- g) * (c * cr) - (c * cy) * (c * sr)); [ring|]. rewrite A0, A1, B0, B1.
      rewrite <- K.
      replace (d * - g * i) with (d * (a * d' + d * f)) by (replace (a * d' + d * f) with (- (g * i)) by lra; ring).
      rewrite <- Q5. ring.
    + lra.
    + lra.
    + lra.
Qed.

(** Inside the band the roll is dropped: every coefficient of the rotation is reproduced up to
    0.002, *)
Definition close (e : R) (a b : mat3) : Prop :=
  Rabs (m00 a - m00 b) < e /\ Rabs (m01 a - m01 b) < e /\ Rabs (m02 a - m02 b) < e /\
  Rabs (m10 a - m10 b) < e /\ Rabs (m11 a - m11 b) < e /\ Rabs (m12 a - m12 b) < e /\
  Rabs (m20 a - m20 b) < e /\ Rabs (m21 a - m21 b) < e /\ Rabs (m22 a - m22 b) < e.

Lemma cos_near p : - (PI / 2) <= p <= PI / 2 -> Rabs (Rabs p - PI / 2) < 1 / 1000 -> cos p < 1 / 1000.
Proof.
  intros Hp B. pose proof PI_RGT_0.
  assert (E : cos p = cos (Rabs p)) by (unfold Rabs; destruct (Rcase_abs p); [now rewrite cos_neg|reflexivity]).
  rewrite E. assert (Rabs p <= PI / 2) by (unfold Rabs; destruct (Rcase_abs p); lra).
  replace (Rabs p) with (PI / 2 - (PI / 2 - Rabs p)) by ring. rewrite cos_shift.
  set (x := PI / 2 - Rabs p) in *. assert (0 <= x < 1 / 1000).
  { unfold x. rewrite Rabs_left1 in B by lra. lra. }
  destruct (Req_dec x 0) as [-> |N]; [rewrite sin_0; lra|]. pose proof (sin_lt_x x). lra.
Qed.

Lemma mul_bound x y A B : - A <= x <= A -> - B <= y <= B -> 0 <= A -> - (A * B) <= x * y <= A * B.
Proof. intros [X1 X2] [Y1 Y2] HA. split; nra. Qed.

Lemma small_square c : 0 <= c <= 1 / 1000 -> c * c <= 1 / 1000000.
Proof. intros Hc. nra. Qed.
Lemma square_bound x c : 0 <= c -> x * x <= c * c -> - c <= x <= c.
Proof. intros Hc Hx. split; nra. Qed.
Lemma one_minus_root n x k : 0 <= n -> n * n = 1 - x -> 0 <= x <= k -> 0 <= 1 - n <= k.
Proof. intros Hn E Hx. split; nra. Qed.

Theorem base_rotation_band pos m : is_rot m -> in_band m ->
  exists p y, base_se3_to_sot pos m = [vx pos; vy pos; vz pos; 0; p; y] /\ close (2 / 1000) (rpy_rotation 0 p y) m.
Proof.
  intros Hr B. unfold base_se3_to_sot. fold (pitch m).
  destruct (Rlt_dec (Rabs (Rabs (pitch m) - PI / 2)) (1 / 1000)) as [_|N]; [|contradiction].
  do 2 eexists. split; [reflexivity|].
  destruct (pitch_facts m Hr) as (C0 & CP & SP & CC & PB). pose proof (cos_near _ PB B) as CN. rewrite CP in CN.
  set (c := sqrt (m21 m * m21 m + m22 m * m22 m)) in *. clearbody c.
  destruct (rot_cof m Hr) as (Q0&Q1&Q2&Q3&Q4&Q5&Q6&Q7&Q8).
  destruct (rot_rows m Hr) as (R0&R1&R2&R3&R4&R5).
  destruct (rot_cols m Hr) as (L0&L1&L2&L3&L4&L5).
  destruct (atan2_spec (m01 m) (m11 m)) as [A0 A1]. pose proof (sin2_cos2 (atan2 (m01 m) (m11 m))) as SC.
  unfold Rsqr in SC.
  destruct m as [a b d' d e f g h i]. gcbn.
  set (n := sqrt (e * e + b * b)) in *.
  assert (N0 : 0 <= n) by apply sqrt_pos.
  assert (NN : n * n = 1 - h * h) by (unfold n; rewrite sqrt_sqrt; pose proof (Rle_0_sqr e) as S1; pose proof (Rle_0_sqr b) as S2; unfold Rsqr in S1, S2; lra). clearbody n.
  unfold close, rpy_rotation, mmul, axisMat. gcbn. rewrite cos_neg, sin_neg, cos_0, sin_0, CP, SP.
  set (cy := cos (atan2 b e)) in *. set (sy := sin (atan2 b e)) in *. clearbody cy sy.
  clear CP SP PB B.
  pose proof (Rle_0_sqr a) as Sa. pose proof (Rle_0_sqr d) as Sd. pose proof (Rle_0_sqr g) as Sg.
  pose proof (Rle_0_sqr h) as Sh. pose proof (Rle_0_sqr i) as Si. pose proof (Rle_0_sqr cy) as Scy.
  pose proof (Rle_0_sqr sy) as Ssy. unfold Rsqr in Sa, Sd, Sg, Sh, Si, Scy, Ssy.
  assert (Hh : - c <= h <= c) by (apply square_bound; lra). assert (Hi : - c <= i <= c) by (apply square_bound; lra).
  assert (Ha : - c <= a <= c) by (apply square_bound; lra). assert (Hd : - c <= d <= c) by (apply square_bound; lra).
  assert (Hcy : -1 <= cy <= 1) by (apply square_bound; lra). assert (Hsy : -1 <= sy <= 1) by (apply square_bound; lra).
  assert (Hg : -1 <= g <= 1) by (apply square_bound; lra).
  assert (N1 : 0 <= 1 - n <= c * c) by (apply one_minus_root with (h * h); lra).
  assert (c2 : c * c <= 1 / 1000000) by (apply small_square; lra).
  (* differences of the unit column *)
  assert (De : - (c * c) <= cy - e <= c * c).
  { rewrite <- A0. replace (cy - n * cy) with ((1 - n) * cy) by ring. rewrite <- (Rmult_1_r (c * c)).
    apply mul_bound; [|lra..]. lra. }
  assert (Db : - (c * c) <= sy - b <= c * c).
  { rewrite <- A1. replace (sy - n * sy) with ((1 - n) * sy) by ring. rewrite <- (Rmult_1_r (c * c)).
    apply mul_bound; [|lra..]. lra. }
  assert (Dh : - (c * c) <= d * h <= c * c) by (apply mul_bound; lra).
  assert (Ah : - (c * c) <= a * h <= c * c) by (apply mul_bound; lra).
  assert (gcy : - (c * c) <= g * (cy - e) <= c * c) by (rewrite <- (Rmult_1_l (c * c)); apply mul_bound; lra).
  assert (gsy : - (c * c) <= g * (sy - b) <= c * c) by (rewrite <- (Rmult_1_l (c * c)); apply mul_bound; lra).
  assert (ccy : - c <= c * cy <= c) by (pose proof (mul_bound c cy c 1 ltac:(lra) ltac:(lra) C0); lra).
  assert (csy : - c <= c * sy <= c) by (pose proof (mul_bound c sy c 1 ltac:(lra) ltac:(lra) C0); lra).
  repeat split; apply Rabs_def1; try lra.
  all: try (replace (cy * 0 + - - sy * 0) with 0 by ring).
  all: lra.
Qed.

(** and exactness fails: at pitch pi/2 - 0.0005 a roll of one radian is lost. *)
Theorem base_band_refuted : exists m p y, is_rot m /\ base_se3_to_sot v0 m = [0; 0; 0; 0; p; y] /\
  rpy_rotation 0 p y <> m.
Proof.
  set (p0 := PI / 2 - 1 / 2000).
  assert (PP : 0 < p0 < PI / 2). { unfold p0. pose proof PI2_1. lra. }
  exists (rpy_rotation 1 p0 0).
  assert (Hr : is_rot (rpy_rotation 1 p0 0)) by (unfold rpy_rotation; apply rot_mul; [apply rot_mul|]; apply axisMat_rot).
  assert (C0 : 0 < cos p0) by (apply cos_gt_0; lra).
  assert (Ep : pitch (rpy_rotation 1 p0 0) = p0).
  { unfold pitch, rpy_rotation, mmul, axisMat. gcbn. 
    match goal with |- atan2 ?x (sqrt ?y) = _ =>
      replace x with (sin p0) by ring; replace y with (cos p0 * cos p0) end.
    - rewrite sqrt_square by lra. apply atan2_sincos, PP.
    - pose proof (sin2_cos2 1) as X. unfold Rsqr in X.
      replace (cos p0 * cos p0) with (cos p0 * cos p0 * (sin 1 * sin 1 + cos 1 * cos 1)) by (rewrite X; ring). ring. }
  assert (B : in_band (rpy_rotation 1 p0 0)).
  { unfold in_band. rewrite Ep. rewrite (Rabs_right p0) by lra. unfold p0. rewrite Rabs_left; lra. }
  destruct (base_rotation_band v0 _ Hr B) as (p & y & E & _). exists p, y. split; [exact Hr|]. split; [exact E|].
  intros F. assert (G : m21 (rpy_rotation 0 p y) = m21 (rpy_rotation 1 p0 0)) by now rewrite F.
  unfold rpy_rotation, mmul, axisMat in G. gcbn. rewrite !cos_0, !sin_0 in G.
  assert (0 < sin 1). { apply sin_gt_0; [lra|]. pose proof PI2_1. lra. }
  assert (0 < cos p0 * sin 1) by nra. lra.
Qed.

(** The quaternion made from the angles is a unit quaternion of the same rotation. *)
Theorem base_to_quaternion px py pz r p y : exists qx qy qz qw,
  base_sot_to_urdf [px; py; pz; r; p; y] = Ok [px; py; pz; qx; qy; qz; qw] /\
  unit_quat (Q qw qx qy qz) /\ quatToMat (Q qw qx qy qz) = rpy_rotation r p y.
Proof.
  unfold base_sot_to_urdf. do 4 eexists. split; [reflexivity|].
  set (q := qmul _ _).
  assert (E : Q (qw q) (qx q) (qy q) (qz q) = q) by now destruct q. rewrite E. split.
  - unfold q. repeat apply qmul_unit; apply aaToQuat_unit; unfold unit_axis, vdot, unitX, unitY, unitZ; gcbn; ring.
  - pose proof (rPYToMatrix_product (V3 r p y)) as X. gcbn. exact X.
Qed.

(** SoT -> URDF -> SoT gives back the same six numbers for angles in the usual ranges, pitch
    outside the band. *)
Theorem base_sot_roundtrip px py pz r p y :
  - PI < r <= PI -> - PI < y <= PI -> Rabs p <= PI / 2 - 1 / 1000 ->
  (let* q := base_sot_to_urdf [px; py; pz; r; p; y] in base_urdf_to_sot q) = Ok [px; py; pz; r; p; y].
Proof.
  intros Hr Hy Hp. destruct (base_to_quaternion px py pz r p y) as (x' & y' & z' & w' & E & _ & M). rewrite E. cbn [bind base_urdf_to_sot].
  rewrite M. f_equal. pose proof PI2_1.
  assert (PB : - (PI / 2) < p < PI / 2). { revert Hp. unfold Rabs. destruct (Rcase_abs p); lra. }
  assert (C0 : 0 < cos p) by (apply cos_gt_0; lra).
  assert (Rt : is_rot (rpy_rotation r p y)) by (unfold rpy_rotation; apply rot_mul; [apply rot_mul|]; apply axisMat_rot).
  assert (X0 : m21 (rpy_rotation r p y) = cos p * sin r) by (unfold rpy_rotation, mmul, axisMat; gcbn; ring).
  assert (X1 : m22 (rpy_rotation r p y) = cos p * cos r) by (unfold rpy_rotation, mmul, axisMat; gcbn; ring).
  assert (X2 : m10 (rpy_rotation r p y) = cos p * sin y) by (unfold rpy_rotation, mmul, axisMat; gcbn; ring).
  assert (X3 : m00 (rpy_rotation r p y) = cos p * cos y) by (unfold rpy_rotation, mmul, axisMat; gcbn; ring).
  assert (X4 : - m20 (rpy_rotation r p y) = 1 * sin p) by (unfold rpy_rotation, mmul, axisMat; gcbn; ring).
  assert (Ep : pitch (rpy_rotation r p y) = p).
  { unfold pitch. rewrite X0, X1, X4.
    replace (cos p * sin r * (cos p * sin r) + cos p * cos r * (cos p * cos r)) with (cos p * cos p).
    - rewrite sqrt_square by lra. rewrite <- (Rmult_1_l (cos p)). apply atan2_polar; lra.
    - pose proof (sin2_cos2 r) as Y. unfold Rsqr in Y.
      replace (cos p * cos p) with (cos p * cos p * (sin r * sin r + cos r * cos r)) by (rewrite Y; ring). ring. }
  unfold base_se3_to_sot. fold (pitch (rpy_rotation r p y)). rewrite Ep, X0, X1, X2, X3.
  destruct (Rlt_dec (Rabs (Rabs p - PI / 2)) (1 / 1000)) as [B|B].
  - exfalso. rewrite Rabs_left1 in B by lra. lra.
  - cbn [vx vy vz]. rewrite !atan2_polar by assumption. reflexivity.
Qed.

(** URDF -> SoT -> URDF gives back the position and the quaternion up to sign, outside the band. *)
Theorem base_urdf_roundtrip px py pz x y z w : unit_quat (Q w x y z) ->
  ~ in_band (quatToMat (Q w x y z)) \/ vertical (quatToMat (Q w x y z)) ->
  exists s, (s = 1 \/ s = -1) /\
  (let* q := base_urdf_to_sot [px; py; pz; x; y; z; w] in base_sot_to_urdf q) =
    Ok [px; py; pz; s * x; s * y; s * z; s * w].
Proof.
  intros U HB. cbn [base_urdf_to_sot bind].
  destruct (base_rotation_exact (V3 px py pz) _ (quatToMat_rot _ U) HB) as (r & p & yw & E & M). rewrite E. gcbn. cbn [vx vy vz].
  destruct (base_to_quaternion px py pz r p yw) as (x' & y' & z' & w' & E' & U' & M'). rewrite E'.
  rewrite M in M'. pose proof (quat_of_self _ U) as A. pose proof (quat_of_self _ U') as B. rewrite M' in B.
  destruct (quat_of_unique _ _ _ A B) as [K|K]; injection K as -> -> -> ->; gcbn.
  - exists 1. split; [auto|]. rewrite !Rmult_1_l. reflexivity.
  - exists (-1). split; [auto|]. do 2 f_equal; repeat f_equal; ring.
Qed.

Example base_example : base_urdf_to_sot [1; 2; 3; 0; 0; 0; 1] = Ok [1; 2; 3; 0; 0; 0].
Proof.
  assert (E : (let* q := base_sot_to_urdf [1; 2; 3; 0; 0; 0] in base_urdf_to_sot q) = Ok [1; 2; 3; 0; 0; 0]).
  { pose proof PI2_1. apply base_sot_roundtrip; try lra. rewrite Rabs_R0. lra. }
  rewrite <- E. unfold base_sot_to_urdf, qmul, aaToQuat, unitX, unitY, unitZ. gcbn. cbn [bind].
  replace (1 / 2 * 0) with 0 by ring. rewrite cos_0, sin_0. do 8 f_equal; repeat f_equal; ring.
Qed.

(** ** Velocities and configurations of a robot whose joint map is a permutation *)
Section Whole.
Variables (h : list rcmd) (r : robot) (u : list Z).
Hypothesis HR : ofold rapply h ru_start = Ok r.
Hypothesis HJ : last_of sets_joints h = Some u.
Hypothesis HP : is_perm u.
Hypothesis HN : u <> [].

Lemma nb_joints : ru_nb r = Some (length u) /\ (0 < length u)%nat.
Proof.
  destruct (robot_reads_back h r HR) as (_ & _ & _ & _ & _ & _ & _ & _ & E). rewrite HJ in E. split; [exact E|].
  destruct u; [congruence|cbn; lia].
Qed.

Lemma split6 (v : list R) n : length v = (n + 6)%nat -> exists a b c d e f t,
  v = a :: b :: c :: d :: e :: f :: t /\ length t = n.
Proof.
  intros H. do 6 (destruct v as [|? v]; [cbn in H; lia|]). cbn in H. do 7 eexists. split; [reflexivity|]. lia.
Qed.
Lemma split7 (v : list R) n : length v = (n + 7)%nat -> exists a b c d e f g t,
  v = a :: b :: c :: d :: e :: f :: g :: t /\ length t = n.
Proof.
  intros H. do 7 (destruct v as [|? v]; [cbn in H; lia|]). cbn in H. do 8 eexists. split; [reflexivity|]. lia.
Qed.

(** Velocities: the linear and angular velocities are rotated by the orientation of the base, the
    joints are reordered; the two conversions are inverse of each other for a unit quaternion. *)
Theorem velocity_roundtrip q v s b : length q = (length u + 7)%nat -> length v = (length u + 6)%nat ->
  length s = (length u + 6)%nat -> length b = (length u + 6)%nat ->
  unit_quat (Q (nth 6 q 0) (nth 3 q 0) (nth 4 q 0) (nth 5 q 0)) ->
  (exists s', velocity_urdf_to_sot r q v s = Ok (true, s') /\ velocity_sot_to_urdf r q s' b = Ok (true, v) /\
     (let Rb := quatToMat (Q (nth 6 q 0) (nth 3 q 0) (nth 4 q 0) (nth 5 q 0)) in
      V3 (nth 0 s' 0) (nth 1 s' 0) (nth 2 s' 0) = mapp Rb (V3 (nth 0 v 0) (nth 1 v 0) (nth 2 v 0)) /\
      V3 (nth 3 s' 0) (nth 4 s' 0) (nth 5 s' 0) = mapp Rb (V3 (nth 3 v 0) (nth 4 v 0) (nth 5 v 0))) /\
     forall i, (i < length u)%nat -> nth (6 + Z.to_nat (nth i u 0%Z)) s' 0 = nth (6 + i) v 0) /\
  (exists v', velocity_sot_to_urdf r q s v = Ok (true, v') /\ velocity_urdf_to_sot r q v' b = Ok (true, s)).
Proof.
  intros Lq Lv Ls Lb U. destruct nb_joints as [NB N0].
  destruct (split7 q _ Lq) as (q0 & q1 & q2 & q3 & q4 & q5 & q6 & qt & -> & Lqt).
  destruct (split6 v _ Lv) as (a0 & a1 & a2 & a3 & a4 & a5 & vt & -> & Lvt).
  destruct (split6 s _ Ls) as (c0 & c1 & c2 & c3 & c4 & c5 & st & -> & Lst).
  destruct (split6 b _ Lb) as (d0 & d1 & d2 & d3 & d4 & d5 & bt & -> & Lbt).
  cbn [nth] in U.
  destruct (joints_roundtrip 0 h r u HR HJ HP HN vt st bt Lvt Lst Lbt) as [(s' & E1 & E2 & E3) (q' & F1 & F2)].
  assert (Sz : forall n, n = length u -> (0 < n)%nat -> exists k, n = S k) by (intros [|k] _ H; [lia|eauto]).
  destruct (Sz _ eq_refl N0) as (k & Hk).
  pose proof (quatToMat_rot _ U) as Rt. set (M := quatToMat (Q q6 q3 q4 q5)) in *.
  assert (Ls' : length s' = length u).
  { unfold joints_sot_to_urdf in E2. rewrite NB in E2. rewrite Lbt, Nat.eqb_refl in E2. cbn [andb] in E2.
    destruct (Nat.eqb_spec (length s') (length u)); [assumption|discriminate]. }
  assert (Lq' : length q' = length u).
  { unfold joints_urdf_to_sot in F2. rewrite NB, Hk in F2. destruct (Nat.eqb_spec (length q') (S k)); [congruence|discriminate]. }
  unfold velocity_urdf_to_sot, velocity_sot_to_urdf. rewrite !NB, Hk. unfold base_rotation.
  cbn [length]. rewrite Lqt, Lvt, Lst, Lbt, Hk.
  replace (S (S (S (S (S (S (S (S k))))))) =? S k + 7)%nat with true by (symmetry; apply Nat.eqb_eq; lia).
  replace (S (S (S (S (S (S (S k)))))) =? S k + 6)%nat with true by (symmetry; apply Nat.eqb_eq; lia).
  cbn [andb vget nth_error bind get3 rget Nat.add skipn]. fold M. rewrite E1, F1. cbn [bind snd vlist app].
  split.
  - eexists. split; [reflexivity|]. split; [|split].
    + cbn [length app]. rewrite Ls', Hk.
      replace (S (S (S (S (S (S (S k)))))) =? S (k + 6))%nat with true by (symmetry; apply Nat.eqb_eq; lia).
      cbn [andb get3 rget Nat.add vget nth_error bind skipn]. rewrite E2. cbn [bind snd vlist app].
      assert (MT : forall x, mapp (mT M) (mapp M x) = x).
      { intros x. rewrite <- mapp_mmul, (rot_mT_l M Rt). apply mapp_id. }
      repeat match goal with |- context [V3 (vx ?x) (vy ?x) (vz ?x)] =>
        replace (V3 (vx x) (vy x) (vz x)) with x by (destruct x; reflexivity) end.
      rewrite !MT. reflexivity.
    + cbv zeta. cbn [nth app]. fold M. split; match goal with |- V3 (vx ?x) _ _ = _ => destruct x; reflexivity end.
    + intros i Hi. cbn [nth Nat.add app]. apply E3. lia.
  - eexists. split; [reflexivity|].
    cbn [length app]. rewrite Lq', Hk.
    replace (S (S (S (S (S (S (S k)))))) =? S (k + 6))%nat with true by (symmetry; apply Nat.eqb_eq; lia).
    cbn [andb get3 rget Nat.add vget nth_error bind skipn]. rewrite F2. cbn [bind snd vlist app].
    assert (MT : forall x, mapp M (mapp (mT M) x) = x).
    { intros x. rewrite <- mapp_mmul, (rot_mT_r M Rt). apply mapp_id. }
    repeat match goal with |- context [V3 (vx ?x) (vy ?x) (vz ?x)] =>
      replace (V3 (vx x) (vy x) (vz x)) with x by (destruct x; reflexivity) end.
    rewrite !MT. reflexivity.
Qed.

(** Configurations, SoT -> URDF -> SoT. Missing: configurations within
    0.001 rad of a vertical pitch, where the roll is dropped. *)
Theorem config_sot_roundtrip_partial s q b : length s = (length u + 6)%nat -> length q = (length u + 7)%nat ->
  length b = (length u + 6)%nat ->
  - PI < nth 3 s 0 <= PI -> - PI < nth 5 s 0 <= PI -> Rabs (nth 4 s 0) <= PI / 2 - 1 / 1000 ->
  exists q', config_sot_to_urdf r s q = Ok q' /\ config_urdf_to_sot r q' b = Ok s.
Proof.
  intros Ls Lq Lb Hr Hy Hp. destruct nb_joints as [NB N0].
  destruct (split7 q _ Lq) as (q0 & q1 & q2 & q3 & q4 & q5 & q6 & qt & -> & Lqt).
  destruct (split6 s _ Ls) as (c0 & c1 & c2 & c3 & c4 & c5 & st & -> & Lst).
  destruct (split6 b _ Lb) as (d0 & d1 & d2 & d3 & d4 & d5 & bt & -> & Lbt).
  cbn [nth] in *.
  destruct (joints_roundtrip 0 h r u HR HJ HP HN qt st bt Lqt Lst Lbt) as [_ (q' & F1 & F2)].
  assert (Lq' : length q' = length u).
  { unfold joints_urdf_to_sot in F2. rewrite NB in F2. destruct (length u) as [|k]; [lia|].
    destruct (Nat.eqb_spec (length q') (S k)); [congruence|discriminate]. }
  pose proof (base_sot_roundtrip c0 c1 c2 c3 c4 c5 Hr Hy Hp) as B.
  unfold config_sot_to_urdf, config_urdf_to_sot. rewrite !NB. cbn [length]. rewrite Lqt, Lst, Lbt.
  replace (S (S (S (S (S (S (S (length u))))))) =? length u + 7)%nat with true by (symmetry; apply Nat.eqb_eq; lia).
  replace (S (S (S (S (S (S (length u)))))) =? length u + 6)%nat with true by (symmetry; apply Nat.eqb_eq; lia).
  cbn [andb firstn skipn]. destruct (base_to_quaternion c0 c1 c2 c3 c4 c5) as (x & y & z & w & E & _ & _).
  rewrite E in *. cbn [bind] in B |- *. rewrite F1. cbn [bind snd app]. eexists. split; [reflexivity|].
  cbn [length]. rewrite Lq'.
  replace (S (S (S (S (S (S (S (length u))))))) =? length u + 7)%nat with true by (symmetry; apply Nat.eqb_eq; lia).
  cbn [andb firstn skipn]. rewrite B, F2. cbn [bind snd app]. reflexivity.
Qed.

(** Configurations, URDF -> SoT -> URDF, up to the sign of the quaternion.
    Missing: configurations within 0.001 rad of a vertical pitch, where
    the roll is dropped. *)
Theorem config_urdf_roundtrip_partial q s b : length q = (length u + 7)%nat -> length s = (length u + 6)%nat ->
  length b = (length u + 7)%nat ->
  unit_quat (Q (nth 6 q 0) (nth 3 q 0) (nth 4 q 0) (nth 5 q 0)) ->
  ~ in_band (quatToMat (Q (nth 6 q 0) (nth 3 q 0) (nth 4 q 0) (nth 5 q 0))) ->
  exists s' q' sg, config_urdf_to_sot r q s = Ok s' /\ config_sot_to_urdf r s' b = Ok q' /\ (sg = 1 \/ sg = -1) /\
    length q' = length q /\
    forall i, nth i q' 0 = (if (3 <=? i)%nat && (i <=? 6)%nat then sg else 1) * nth i q 0.
Proof.
  intros Lq Ls Lb U HB. destruct nb_joints as [NB N0].
  destruct (split7 q _ Lq) as (q0 & q1 & q2 & q3 & q4 & q5 & q6 & qt & -> & Lqt).
  destruct (split6 s _ Ls) as (c0 & c1 & c2 & c3 & c4 & c5 & st & -> & Lst).
  destruct (split7 b _ Lb) as (d0 & d1 & d2 & d3 & d4 & d5 & d6 & bt & -> & Lbt).
  cbn [nth] in *.
  destruct (joints_roundtrip 0 h r u HR HJ HP HN qt st bt Lqt Lst Lbt) as [(s' & E1 & E2 & _) _].
  assert (Ls' : length s' = length u).
  { unfold joints_sot_to_urdf in E2. rewrite NB in E2. rewrite Lbt, Nat.eqb_refl in E2. cbn [andb] in E2.
    destruct (Nat.eqb_spec (length s') (length u)); [assumption|discriminate]. }
  destruct (base_urdf_roundtrip q0 q1 q2 q3 q4 q5 q6 U (or_introl HB)) as (sg & Hsg & B).
  unfold config_sot_to_urdf, config_urdf_to_sot. rewrite !NB. cbn [length]. rewrite Lqt, Lst, Lbt.
  replace (S (S (S (S (S (S (S (length u))))))) =? length u + 7)%nat with true by (symmetry; apply Nat.eqb_eq; lia).
  replace (S (S (S (S (S (S (length u)))))) =? length u + 6)%nat with true by (symmetry; apply Nat.eqb_eq; lia).
  cbn [andb firstn skipn]. cbn [base_urdf_to_sot bind] in *. rewrite E1. cbn [bind snd].
  unfold base_se3_to_sot in *. destruct (if Rlt_dec _ _ then _ else _) as [rr yy]. cbn [app] in *.
  do 3 eexists. split; [reflexivity|]. cbn [length app]. rewrite Ls'.
  replace (S (S (S (S (S (S (length u)))))) =? length u + 6)%nat with true by (symmetry; apply Nat.eqb_eq; lia).
  cbn [andb firstn skipn]. rewrite B, E2. cbn [bind snd app]. split; [reflexivity|]. split; [exact Hsg|].
  split; [cbn [length]; congruence|].
  intros i. do 7 (destruct i as [|i]; [cbn [nth Nat.leb andb]; ring|]). cbn [nth Nat.leb andb]. ring.
Qed.
End Whole.

(** Without joints the velocity conversions fail and convert nothing, not even the base. *)
Theorem velocity_no_joints h r q v s : ofold rapply h ru_start = Ok r -> last_of sets_joints h = Some [] ->
  length q = 7%nat -> length v = 6%nat -> length s = 6%nat ->
  velocity_urdf_to_sot r q v s = Ok (false, s) /\ velocity_sot_to_urdf r q s v = Ok (false, v).
Proof.
  intros E HJ Lq Lv Ls. destruct (robot_reads_back h r E) as (_ & _ & _ & _ & _ & _ & _ & _ & NB). rewrite HJ in NB.
  unfold velocity_urdf_to_sot, velocity_sot_to_urdf. rewrite NB, Lq, Lv, Ls. split; reflexivity.
Qed.

(** The sizes of the configurations and of the velocities are not tested either. *)
Theorem whole_sizes_unchecked h r u q v s : ofold rapply h ru_start = Ok r -> last_of sets_joints h = Some u ->
  (length q <> (length u + 7)%nat \/ length s <> (length u + 6)%nat ->
     config_urdf_to_sot r q s = UB /\ config_sot_to_urdf r s q = UB) /\
  (length q <> (length u + 7)%nat \/ length v <> (length u + 6)%nat \/ length s <> (length u + 6)%nat ->
     velocity_urdf_to_sot r q v s = UB /\ velocity_sot_to_urdf r q s v = UB).
Proof.
  intros E HJ. destruct (robot_reads_back h r E) as (_ & _ & _ & _ & _ & _ & _ & _ & NB). rewrite HJ in NB. cbn in NB.
  unfold config_urdf_to_sot, config_sot_to_urdf, velocity_urdf_to_sot, velocity_sot_to_urdf. rewrite NB.
  destruct (Nat.eqb_spec (length q) (length u + 7)), (Nat.eqb_spec (length s) (length u + 6)),
    (Nat.eqb_spec (length v) (length u + 6)); cbn [andb]; split; intros H; try (exfalso; tauto);
    split; reflexivity.
Qed.

Example whole_example : exists r s', ofold rapply [RJoints [1; 0]%Z] ru_start = Ok r /\
  is_perm [1; 0]%Z /\ unit_quat (Q 1 0 0 0) /\ ~ in_band (quatToMat (Q 1 0 0 0)) /\
  config_urdf_to_sot r [1; 2; 3; 0; 0; 0; 1; 8; 9] [0; 0; 0; 0; 0; 0; 0; 0] = Ok s'.
Proof.
  eexists. eexists. split; [reflexivity|]. split; [unfold is_perm; cbn; constructor|].
  split; [unfold unit_quat; cbn; ring|]. split.
  - unfold in_band, pitch, quatToMat. gcbn. intros H. pose proof PI2_1.
    match type of H with context [atan2 ?x (sqrt ?y)] => replace x with 0 in H by ring; replace y with 1 in H by ring end.
    rewrite sqrt_1 in H. unfold atan2 in H. destruct (Rlt_dec 0 1); [|lra]. replace (0 / 1) with 0 in H by field.
    rewrite atan_0, Rabs_R0, Rabs_left in H; lra.
  - reflexivity.
Qed.

Print Assumptions base_rotation_exact.
Print Assumptions base_rotation_band.
Print Assumptions base_band_refuted.
Print Assumptions base_to_quaternion.
Print Assumptions base_sot_roundtrip.
Print Assumptions base_urdf_roundtrip.
Print Assumptions velocity_roundtrip.
Print Assumptions config_sot_roundtrip_partial.
Print Assumptions config_urdf_roundtrip_partial.
Print Assumptions velocity_no_joints.
Print Assumptions whole_sizes_unchecked.
