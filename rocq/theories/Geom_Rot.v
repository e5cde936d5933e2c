(** Rotation parametrisations: every conversion used by sot-core represents the
    same rotation. *)
From Coq Require Import String List Arith Lia ZArith Bool Reals Lra Psatz.
From Verif Require Import Base Geom_Model Geom_Facts.
Import ListNotations.
Local Open Scope R_scope.

Definition unit_quat (q : quat) : Prop :=
  qw q * qw q + qx q * qx q + qy q * qy q + qz q * qz q = 1.

Ltac gcbn := cbn [m00 m01 m02 m10 m11 m12 m20 m21 m22 vx vy vz qw qx qy qz
                  lin trn ang axis] in *.

Lemma mat3_ext a b :
  m00 a = m00 b -> m01 a = m01 b -> m02 a = m02 b ->
  m10 a = m10 b -> m11 a = m11 b -> m12 a = m12 b ->
  m20 a = m20 b -> m21 a = m21 b -> m22 a = m22 b -> a = b.
Proof. destruct a, b; cbn; intros; subst; reflexivity. Qed.

Lemma quatToMat_rot q : unit_quat q -> is_rot (quatToMat q).
Proof.
  destruct q as [w x y z]. unfold unit_quat. cbn [qw qx qy qz]. intros U.
  set (n := w * w + x * x + y * y + z * z) in U.
  split.
  - unfold mmul, mT, quatToMat, mid. gcbn. f_equal.
    + transitivity (1 + 4 * (y * y + z * z) * (n - 1)); [unfold n; ring|rewrite U; ring].
    + transitivity (-4 * x * y * (n - 1)); [unfold n; ring|rewrite U; ring].
    + transitivity (-4 * x * z * (n - 1)); [unfold n; ring|rewrite U; ring].
    + transitivity (-4 * x * y * (n - 1)); [unfold n; ring|rewrite U; ring].
    + transitivity (1 + 4 * (x * x + z * z) * (n - 1)); [unfold n; ring|rewrite U; ring].
    + transitivity (-4 * y * z * (n - 1)); [unfold n; ring|rewrite U; ring].
    + transitivity (-4 * x * z * (n - 1)); [unfold n; ring|rewrite U; ring].
    + transitivity (-4 * y * z * (n - 1)); [unfold n; ring|rewrite U; ring].
    + transitivity (1 + 4 * (x * x + y * y) * (n - 1)); [unfold n; ring|rewrite U; ring].
  - unfold mdet, quatToMat. gcbn.
    transitivity (1 + 4 * (x * x + y * y + z * z) * (n - 1)); [unfold n; ring|rewrite U; ring].
Qed.

Lemma quatToMat_mul a b : unit_quat a -> unit_quat b ->
  quatToMat (qmul a b) = mmul (quatToMat a) (quatToMat b).
Proof.
  destruct a as [w x y z], b as [w' x' y' z']. unfold unit_quat. gcbn.
  intros U U'.
  assert (W : w * w = 1 - x * x - y * y - z * z) by lra.
  assert (W' : w' * w' = 1 - x' * x' - y' * y' - z' * z') by lra.
  unfold mmul, quatToMat, qmul. gcbn. f_equal; ring [W W'].
Qed.

Lemma quatToMat_conj q : quatToMat (qconj q) = mT (quatToMat q).
Proof. gring. Qed.

Lemma quatToMat_opp w x y z :
  quatToMat (Q (- w) (- x) (- y) (- z)) = quatToMat (Q w x y z).
Proof. gring. Qed.

Lemma qmul_unit a b : unit_quat a -> unit_quat b -> unit_quat (qmul a b).
Proof.
  destruct a as [w x y z], b as [w' x' y' z']. unfold unit_quat, qmul. gcbn.
  intros U U'.
  transitivity ((w * w + x * x + y * y + z * z)
                * (w' * w' + x' * x' + y' * y' + z' * z')); [ring|].
  rewrite U, U'. ring.
Qed.

(** ** Quaternion of a rotation matrix *)
Lemma half_sqrt d : 0 < d ->
  let t := sqrt d in let s := 1 / 2 / t in
  t * s = 1 / 2 /\ t * t = d /\ s * s * d = 1 / 4.
Proof.
  intros Hd t s. assert (Ht : 0 < t) by (apply sqrt_lt_R0, Hd).
  assert (E : t * t = d) by (apply sqrt_sqrt; lra).
  assert (Es : t * s = 1 / 2) by (unfold s; field; lra).
  repeat split; try assumption.
  rewrite <- E. replace (s * s * (t * t)) with ((t * s) * (t * s)) by ring.
  rewrite Es. field.
Qed.

Section Shoemake.
Variables a b c d e f g h i : R.
Hypothesis Hrot : is_rot (M3 a b c d e f g h i).

Let C := rot_cof _ Hrot.
Let RW := rot_rows _ Hrot.
Let CL := rot_cols _ Hrot.

(** The ten products of quaternion components, in terms of the matrix. *)
Lemma shoe_xx_yy : (f - h) * (f - h) = (1 + a - e - i) * (1 + a + e + i).
Proof.
  clear - C RW CL. cbn in C, RW, CL.
  destruct C as (C0&C1&C2&C3&C4&C5&C6&C7&C8), RW as (R0&R1&R2&R3&R4&R5),
    CL as (L0&L1&L2&L3&L4&L5).
  assert (e * e + f * f + d * d = 1) by lra.
  transitivity (f * f + h * h - 2 * (f * h)); [ring|].
  assert (f * h = e * i - a) as -> by lra.
  assert (f * f = 1 - d * d - e * e) as -> by lra.
  assert (h * h = 1 - g * g - i * i) as -> by lra.
  assert (d * d + g * g = 1 - a * a) by lra.
  transitivity (2 - (d * d + g * g) - e * e - i * i - 2 * (e * i - a)); [ring|].
  rewrite H0. ring.
Qed.

Lemma shoe_yy : (c - g) * (c - g) = (1 + e - a - i) * (1 + a + e + i).
Proof.
  clear - C RW CL. cbn in C, RW, CL.
  destruct C as (C0&C1&C2&C3&C4&C5&C6&C7&C8), RW as (R0&R1&R2&R3&R4&R5),
    CL as (L0&L1&L2&L3&L4&L5).
  transitivity (c * c + g * g - 2 * (c * g)); [ring|].
  assert (c * g = a * i - e) as -> by lra.
  assert (c * c = 1 - b * b - a * a) as -> by lra.
  assert (g * g = 1 - h * h - i * i) as -> by lra.
  assert (H0 : b * b + h * h = 1 - e * e) by lra.
  transitivity (2 - (b * b + h * h) - a * a - i * i - 2 * (a * i - e)); [ring|].
  rewrite H0. ring.
Qed.

Lemma shoe_zz : (d - b) * (d - b) = (1 + i - a - e) * (1 + a + e + i).
Proof.
  clear - C RW CL. cbn in C, RW, CL.
  destruct C as (C0&C1&C2&C3&C4&C5&C6&C7&C8), RW as (R0&R1&R2&R3&R4&R5),
    CL as (L0&L1&L2&L3&L4&L5).
  transitivity (d * d + b * b - 2 * (d * b)); [ring|].
  assert (d * b = a * e - i) as -> by lra.
  assert (d * d = 1 - f * f - e * e) as -> by lra.
  assert (b * b = 1 - c * c - a * a) as -> by lra.
  assert (H0 : f * f + c * c = 1 - i * i) by lra.
  transitivity (2 - (f * f + c * c) - a * a - e * e - 2 * (a * e - i)); [ring|].
  rewrite H0. ring.
Qed.

Lemma shoe_xy : (h - f) * (c - g) = (d + b) * (1 + a + e + i).
Proof.
  clear - C RW CL. cbn in C, RW, CL.
  destruct C as (C0&C1&C2&C3&C4&C5&C6&C7&C8), RW as (R0&R1&R2&R3&R4&R5),
    CL as (L0&L1&L2&L3&L4&L5). lra.
Qed.

Lemma shoe_xz : (h - f) * (d - b) = (c + g) * (1 + a + e + i).
Proof.
  clear - C RW CL. cbn in C, RW, CL.
  destruct C as (C0&C1&C2&C3&C4&C5&C6&C7&C8), RW as (R0&R1&R2&R3&R4&R5),
    CL as (L0&L1&L2&L3&L4&L5). lra.
Qed.

Lemma shoe_yz : (c - g) * (d - b) = (f + h) * (1 + a + e + i).
Proof.
  clear - C RW CL. cbn in C, RW, CL.
  destruct C as (C0&C1&C2&C3&C4&C5&C6&C7&C8), RW as (R0&R1&R2&R3&R4&R5),
    CL as (L0&L1&L2&L3&L4&L5). lra.
Qed.

(** off-diagonal products *)
Lemma shoe_xx_xy : (b + d) * (b + d) = (1 + a - e - i) * (1 + e - a - i).
Proof.
  clear - C RW CL. cbn in C, RW, CL.
  destruct C as (C0&C1&C2&C3&C4&C5&C6&C7&C8), RW as (R0&R1&R2&R3&R4&R5),
    CL as (L0&L1&L2&L3&L4&L5).
  transitivity (d * d + b * b + 2 * (d * b)); [ring|].
  assert (d * b = a * e - i) as -> by lra.
  assert (d * d = 1 - f * f - e * e) as -> by lra.
  assert (b * b = 1 - c * c - a * a) as -> by lra.
  assert (H0 : f * f + c * c = 1 - i * i) by lra.
  transitivity (2 - (f * f + c * c) - a * a - e * e + 2 * (a * e - i)); [ring|].
  rewrite H0. ring.
Qed.

Lemma shoe_xx_zz : (c + g) * (c + g) = (1 + a - e - i) * (1 + i - a - e).
Proof.
  clear - C RW CL. cbn in C, RW, CL.
  destruct C as (C0&C1&C2&C3&C4&C5&C6&C7&C8), RW as (R0&R1&R2&R3&R4&R5),
    CL as (L0&L1&L2&L3&L4&L5).
  transitivity (c * c + g * g + 2 * (c * g)); [ring|].
  assert (c * g = a * i - e) as -> by lra.
  assert (c * c = 1 - b * b - a * a) as -> by lra.
  assert (g * g = 1 - h * h - i * i) as -> by lra.
  assert (H0 : b * b + h * h = 1 - e * e) by lra.
  transitivity (2 - (b * b + h * h) - a * a - i * i + 2 * (a * i - e)); [ring|].
  rewrite H0. ring.
Qed.

Lemma shoe_yy_zz : (f + h) * (f + h) = (1 + e - a - i) * (1 + i - a - e).
Proof.
  clear - C RW CL. cbn in C, RW, CL.
  destruct C as (C0&C1&C2&C3&C4&C5&C6&C7&C8), RW as (R0&R1&R2&R3&R4&R5),
    CL as (L0&L1&L2&L3&L4&L5).
  transitivity (f * f + h * h + 2 * (f * h)); [ring|].
  assert (f * h = e * i - a) as -> by lra.
  assert (f * f = 1 - d * d - e * e) as -> by lra.
  assert (h * h = 1 - g * g - i * i) as -> by lra.
  assert (H0 : d * d + g * g = 1 - a * a) by lra.
  transitivity (2 - (d * d + g * g) - e * e - i * i + 2 * (e * i - a)); [ring|].
  rewrite H0. ring.
Qed.

Lemma shoe_x_yz : (b + d) * (c + g) = (f + h) * (1 + a - e - i).
Proof.
  clear - C RW CL. cbn in C, RW, CL.
  destruct C as (C0&C1&C2&C3&C4&C5&C6&C7&C8), RW as (R0&R1&R2&R3&R4&R5),
    CL as (L0&L1&L2&L3&L4&L5). lra.
Qed.
Lemma shoe_y_xz : (b + d) * (f + h) = (c + g) * (1 + e - a - i).
Proof.
  clear - C RW CL. cbn in C, RW, CL.
  destruct C as (C0&C1&C2&C3&C4&C5&C6&C7&C8), RW as (R0&R1&R2&R3&R4&R5),
    CL as (L0&L1&L2&L3&L4&L5). lra.
Qed.
Lemma shoe_z_xy : (c + g) * (f + h) = (b + d) * (1 + i - a - e).
Proof.
  clear - C RW CL. cbn in C, RW, CL.
  destruct C as (C0&C1&C2&C3&C4&C5&C6&C7&C8), RW as (R0&R1&R2&R3&R4&R5),
    CL as (L0&L1&L2&L3&L4&L5). lra.
Qed.
Lemma shoe_w_x_y : (h - f) * (b + d) = (c - g) * (1 + a - e - i).
Proof.
  clear - C RW CL. cbn in C, RW, CL.
  destruct C as (C0&C1&C2&C3&C4&C5&C6&C7&C8), RW as (R0&R1&R2&R3&R4&R5),
    CL as (L0&L1&L2&L3&L4&L5). lra.
Qed.
Lemma shoe_w_x_z : (h - f) * (c + g) = (d - b) * (1 + a - e - i).
Proof.
  clear - C RW CL. cbn in C, RW, CL.
  destruct C as (C0&C1&C2&C3&C4&C5&C6&C7&C8), RW as (R0&R1&R2&R3&R4&R5),
    CL as (L0&L1&L2&L3&L4&L5). lra.
Qed.
Lemma shoe_w_y_x : (c - g) * (b + d) = (h - f) * (1 + e - a - i).
Proof.
  clear - C RW CL. cbn in C, RW, CL.
  destruct C as (C0&C1&C2&C3&C4&C5&C6&C7&C8), RW as (R0&R1&R2&R3&R4&R5),
    CL as (L0&L1&L2&L3&L4&L5). lra.
Qed.
Lemma shoe_w_y_z : (c - g) * (f + h) = (d - b) * (1 + e - a - i).
Proof.
  clear - C RW CL. cbn in C, RW, CL.
  destruct C as (C0&C1&C2&C3&C4&C5&C6&C7&C8), RW as (R0&R1&R2&R3&R4&R5),
    CL as (L0&L1&L2&L3&L4&L5). lra.
Qed.
Lemma shoe_w_z_x : (d - b) * (c + g) = (h - f) * (1 + i - a - e).
Proof.
  clear - C RW CL. cbn in C, RW, CL.
  destruct C as (C0&C1&C2&C3&C4&C5&C6&C7&C8), RW as (R0&R1&R2&R3&R4&R5),
    CL as (L0&L1&L2&L3&L4&L5). lra.
Qed.
Lemma shoe_w_z_y : (d - b) * (f + h) = (c - g) * (1 + i - a - e).
Proof.
  clear - C RW CL. cbn in C, RW, CL.
  destruct C as (C0&C1&C2&C3&C4&C5&C6&C7&C8), RW as (R0&R1&R2&R3&R4&R5),
    CL as (L0&L1&L2&L3&L4&L5). lra.
Qed.
End Shoemake.

(** [q] has the ten products of the rotation [m]. *)
Definition quat_of (m : mat3) (q : quat) : Prop :=
  let '(M3 a b c d e f g h i) := m in
  let '(Q w x y z) := q in
  4 * (w * w) = 1 + a + e + i /\ 4 * (x * x) = 1 + a - e - i /\
  4 * (y * y) = 1 + e - a - i /\ 4 * (z * z) = 1 + i - a - e /\
  4 * (x * y) = b + d /\ 4 * (x * z) = c + g /\ 4 * (y * z) = f + h /\
  4 * (w * x) = h - f /\ 4 * (w * y) = c - g /\ 4 * (w * z) = d - b.

Lemma quat_of_mat m q : quat_of m q -> quatToMat q = m /\ unit_quat q.
Proof.
  destruct m as [a b c d e f g h i], q as [w x y z]. unfold quat_of.
  intros (E0 & E1 & E2 & E3 & E4 & E5 & E6 & E7 & E8 & E9). split.
  - unfold quatToMat. gcbn. f_equal; lra.
  - unfold unit_quat. gcbn. lra.
Qed.

Lemma matToQuat_of m : is_rot m -> quat_of m (matToQuat m).
Proof.
  destruct m as [a b c d e f g h i]. intros Hr.
  pose proof (shoe_xx_yy _ _ _ _ _ _ _ _ _ Hr) as P1.
  pose proof (shoe_yy _ _ _ _ _ _ _ _ _ Hr) as P2.
  pose proof (shoe_zz _ _ _ _ _ _ _ _ _ Hr) as P3.
  pose proof (shoe_xy _ _ _ _ _ _ _ _ _ Hr) as P4.
  pose proof (shoe_xz _ _ _ _ _ _ _ _ _ Hr) as P5.
  pose proof (shoe_yz _ _ _ _ _ _ _ _ _ Hr) as P6.
  pose proof (shoe_xx_xy _ _ _ _ _ _ _ _ _ Hr) as P7.
  pose proof (shoe_xx_zz _ _ _ _ _ _ _ _ _ Hr) as P8.
  pose proof (shoe_yy_zz _ _ _ _ _ _ _ _ _ Hr) as P9.
  pose proof (shoe_x_yz _ _ _ _ _ _ _ _ _ Hr) as P10.
  pose proof (shoe_y_xz _ _ _ _ _ _ _ _ _ Hr) as P11.
  pose proof (shoe_z_xy _ _ _ _ _ _ _ _ _ Hr) as P12.
  pose proof (shoe_w_x_y _ _ _ _ _ _ _ _ _ Hr) as P13.
  pose proof (shoe_w_x_z _ _ _ _ _ _ _ _ _ Hr) as P14.
  pose proof (shoe_w_y_x _ _ _ _ _ _ _ _ _ Hr) as P15.
  pose proof (shoe_w_y_z _ _ _ _ _ _ _ _ _ Hr) as P16.
  pose proof (shoe_w_z_x _ _ _ _ _ _ _ _ _ Hr) as P17.
  pose proof (shoe_w_z_y _ _ _ _ _ _ _ _ _ Hr) as P18.
  clear Hr. unfold matToQuat. gcbn.
  assert (K : forall D s u v k, s * s * D = 1 / 4 -> u * v = k * D ->
              4 * (u * s * (v * s)) = k).
  { intros D s u v k Hs Hk.
    transitivity (4 * (u * v) * (s * s)); [ring|]. rewrite Hk.
    transitivity (4 * k * (s * s * D)); [ring|]. rewrite Hs. field. }
  assert (L : forall t s u, t * s = 1 / 2 -> 4 * (1 / 2 * t * (u * s)) = u).
  { intros t s u Hts. transitivity (2 * u * (t * s)); [field|].
    rewrite Hts. field. }
  assert (L' : forall t s u, t * s = 1 / 2 -> 4 * (u * s * (1 / 2 * t)) = u).
  { intros t s u Hts. transitivity (2 * u * (t * s)); [field|].
    rewrite Hts. field. }
  destruct (Rlt_dec 0 (a + e + i)) as [T|T].
  - destruct (half_sqrt (a + e + i + 1) ltac:(lra)) as (H1 & H2 & H3).
    cbv zeta in *. set (t := sqrt _) in *. set (s := 1 / 2 / t) in *.
    unfold quat_of.
    repeat apply conj;
      first [ apply L; exact H1 | apply (K _ _ _ _ _ H3); lra | lra ].
  - destruct (Rlt_dec a e) as [I1|I1]; cbv iota.
    + destruct (Rlt_dec e i) as [I2|I2].
      * destruct (half_sqrt (i - a - e + 1) ltac:(lra)) as (H1 & H2 & H3).
        cbv zeta in *. set (t := sqrt _) in *. set (s := 1 / 2 / t) in *.
        unfold quat_of.
        repeat apply conj;
          first [ apply L'; exact H1
                | rewrite (L' _ _ _ H1); ring
                | apply (K _ _ _ _ _ H3); lra | lra ].
      * destruct (half_sqrt (e - i - a + 1) ltac:(lra)) as (H1 & H2 & H3).
        cbv zeta in *. set (t := sqrt _) in *. set (s := 1 / 2 / t) in *.
        unfold quat_of.
        repeat apply conj;
          first [ apply L'; exact H1
                | rewrite (L' _ _ _ H1); ring
                | rewrite (L _ _ _ H1); ring
                | apply (K _ _ _ _ _ H3); lra | lra ].
    + destruct (Rlt_dec a i) as [I2|I2].
      * destruct (half_sqrt (i - a - e + 1) ltac:(lra)) as (H1 & H2 & H3).
        cbv zeta in *. set (t := sqrt _) in *. set (s := 1 / 2 / t) in *.
        unfold quat_of.
        repeat apply conj;
          first [ apply L'; exact H1
                | rewrite (L' _ _ _ H1); ring
                | apply (K _ _ _ _ _ H3); lra | lra ].
      * destruct (half_sqrt (a - e - i + 1) ltac:(lra)) as (H1 & H2 & H3).
        cbv zeta in *. set (t := sqrt _) in *. set (s := 1 / 2 / t) in *.
        unfold quat_of.
        repeat apply conj;
          first [ apply L'; exact H1
                | rewrite (L' _ _ _ H1); ring
                | rewrite (L _ _ _ H1); ring
                | apply (K _ _ _ _ _ H3); lra | lra ].
Qed.

(** A unit quaternion has the products of its matrix. *)
Lemma quat_of_self q : unit_quat q -> quat_of (quatToMat q) q.
Proof.
  destruct q as [w x y z]. unfold unit_quat, quatToMat, quat_of. gcbn.
  intros U. repeat apply conj; lra.
Qed.

(** Quaternions of the same rotation are equal or opposite. *)
Lemma quat_of_unique m q q' : quat_of m q -> quat_of m q' ->
  q' = q \/ q' = Q (- qw q) (- qx q) (- qy q) (- qz q).
Proof.
  intros A B.
  pose proof (proj2 (quat_of_mat m q A)) as U.
  destruct m as [a b c d e f g h i], q as [w x y z], q' as [w' x' y' z'].
  unfold quat_of in A, B. unfold unit_quat in U. gcbn.
  destruct A as (E0 & E1 & E2 & E3 & E4 & E5 & E6 & E7 & E8 & E9).
  destruct B as (F0 & F1 & F2 & F3 & F4 & F5 & F6 & F7 & F8 & F9).
  set (k := w * w' + x * x' + y * y' + z * z').
  assert (Kw : w' = k * w).
  { unfold k. transitivity (w' * (w * w + x * x + y * y + z * z));
      [rewrite U; ring|].
    replace ((w * w' + x * x' + y * y' + z * z') * w)
      with (w' * (w * w) + x' * (w * x) + y' * (w * y) + z' * (w * z)) by ring.
    replace (w * x) with (w' * x') by lra.
    replace (w * y) with (w' * y') by lra.
    replace (w * z) with (w' * z') by lra.
    replace (x * x) with (x' * x') by lra.
    replace (y * y) with (y' * y') by lra.
    replace (z * z) with (z' * z') by lra. ring. }
  assert (Kx : x' = k * x).
  { unfold k. transitivity (x' * (w * w + x * x + y * y + z * z));
      [rewrite U; ring|].
    replace ((w * w' + x * x' + y * y' + z * z') * x)
      with (w' * (w * x) + x' * (x * x) + y' * (x * y) + z' * (x * z)) by ring.
    replace (w * x) with (w' * x') by lra.
    replace (x * y) with (x' * y') by lra.
    replace (x * z) with (x' * z') by lra.
    replace (w * w) with (w' * w') by lra.
    replace (y * y) with (y' * y') by lra.
    replace (z * z) with (z' * z') by lra. ring. }
  assert (Ky : y' = k * y).
  { unfold k. transitivity (y' * (w * w + x * x + y * y + z * z));
      [rewrite U; ring|].
    replace ((w * w' + x * x' + y * y' + z * z') * y)
      with (w' * (w * y) + x' * (x * y) + y' * (y * y) + z' * (y * z)) by ring.
    replace (w * y) with (w' * y') by lra.
    replace (x * y) with (x' * y') by lra.
    replace (y * z) with (y' * z') by lra.
    replace (w * w) with (w' * w') by lra.
    replace (x * x) with (x' * x') by lra.
    replace (z * z) with (z' * z') by lra. ring. }
  assert (Kz : z' = k * z).
  { unfold k. transitivity (z' * (w * w + x * x + y * y + z * z));
      [rewrite U; ring|].
    replace ((w * w' + x * x' + y * y' + z * z') * z)
      with (w' * (w * z) + x' * (x * z) + y' * (y * z) + z' * (z * z)) by ring.
    replace (w * z) with (w' * z') by lra.
    replace (x * z) with (x' * z') by lra.
    replace (y * z) with (y' * z') by lra.
    replace (w * w) with (w' * w') by lra.
    replace (x * x) with (x' * x') by lra.
    replace (y * y) with (y' * y') by lra. ring. }
  assert (KK : k * k = 1).
  { transitivity (k * k * (w * w + x * x + y * y + z * z)); [rewrite U; ring|].
    transitivity ((k * w) * (k * w) + (k * x) * (k * x) + (k * y) * (k * y)
                  + (k * z) * (k * z)); [ring|].
    rewrite <- Kw, <- Kx, <- Ky, <- Kz. lra. }
  clearbody k.
  assert ((k - 1) * (k + 1) = 0) as D by lra.
  apply Rmult_integral in D. destruct D.
  - left. assert (k = 1) as -> by lra. f_equal; lra.
  - right. assert (k = -1) as -> by lra. f_equal; lra.
Qed.

(** ** Angle-axis *)
Definition unit_axis (a : aaxis) : Prop := vdot (axis a) (axis a) = 1.

Lemma aaToQuat_unit a : unit_axis a -> unit_quat (aaToQuat a).
Proof.
  destruct a as [t [x y z]]. unfold unit_axis, unit_quat, aaToQuat, vdot. gcbn.
  intros U. pose proof (sin2_cos2 (1 / 2 * t)) as SC. unfold Rsqr in SC.
  set (s := sin (1 / 2 * t)) in *. set (c := cos (1 / 2 * t)) in *.
  transitivity (c * c + s * s * (x * x + y * y + z * z)); [ring|].
  rewrite U. lra.
Qed.

Lemma aaToMat_quat a : unit_axis a -> quatToMat (aaToQuat a) = aaToMat a.
Proof.
  destruct a as [t [x y z]]. unfold unit_axis, aaToQuat, aaToMat, quatToMat,
    vscal, vdot. gcbn. intros U.
  assert (S : sin t = 2 * sin (1 / 2 * t) * cos (1 / 2 * t)).
  { rewrite <- sin_2a. f_equal. field. }
  assert (C : cos t = 1 - 2 * (sin (1 / 2 * t) * sin (1 / 2 * t))).
  { replace t with (2 * (1 / 2 * t)) at 1 by field. rewrite cos_2a_sin. ring. }
  rewrite S, C. set (s := sin (1 / 2 * t)). set (c := cos (1 / 2 * t)).
  assert (X : x * x = 1 - y * y - z * z) by lra.
  f_equal; ring [X].
Qed.

Lemma aaToMat_rot a : unit_axis a -> is_rot (aaToMat a).
Proof.
  intros U. rewrite <- (aaToMat_quat a U). apply quatToMat_rot, aaToQuat_unit, U.
Qed.

Lemma quatToAA_spec q : unit_quat q ->
  unit_axis (quatToAA q) /\ 0 <= ang (quatToAA q) <= PI /\
  aaToMat (quatToAA q) = quatToMat q.
Proof.
  intros U. pose proof PI_RGT_0 as HPI.
  destruct q as [w x y z]. unfold unit_quat in U. gcbn.
  unfold quatToAA. gcbn.
  set (n := vnorm (V3 x y z)).
  assert (N : n * n = x * x + y * y + z * z).
  { unfold n, vnorm, vdot. gcbn. apply sqrt_sqrt. nra. }
  assert (N0 : 0 <= n) by apply sqrt_pos.
  destruct (Req_EM_T n 0) as [E|E].
  - rewrite E in N. assert (x = 0 /\ y = 0 /\ z = 0) as (-> & -> & ->)
      by (repeat split; nra).
    split; [|split].
    + unfold unit_axis, vdot. gcbn. ring.
    + gcbn. lra.
    + unfold aaToMat, vscal, quatToMat. gcbn. rewrite cos_0, sin_0.
      assert (w * w = 1) by lra. f_equal; lra.
  - assert (NP : 0 < n) by lra.
    set (n' := if Rlt_dec w 0 then - n else n).
    assert (N' : n' <> 0 /\ n' * n' = n * n /\ n' * Rabs w = n * w).
    { unfold n'. destruct (Rlt_dec w 0).
      - rewrite Rabs_left by lra. repeat split; [lra|ring|ring].
      - rewrite Rabs_right by lra. repeat split; [lra]. }
    destruct N' as (N1 & N2 & N3). clearbody n'.
    assert (UA : unit_axis (AA (2 * atan2 n (Rabs w))
                               (vscal (/ n') (V3 x y z)))).
    { unfold unit_axis, vdot, vscal. gcbn.
      transitivity ((x * x + y * y + z * z) / (n' * n')); [field; exact N1|].
      rewrite <- N, <- N2. field. exact N1. }
    assert (AW : Rabs w * Rabs w + n * n = 1).
    { rewrite N. replace (Rabs w * Rabs w) with (w * w); [lra|].
      unfold Rabs. destruct (Rcase_abs w); ring. }
    destruct (atan2_unit n (Rabs w) AW) as [AC AS].
    split; [exact UA|split].
    + gcbn. pose proof (atan2_first n (Rabs w) NP (Rabs_pos w)). lra.
    + rewrite <- (aaToMat_quat _ UA). unfold aaToQuat. gcbn.
      replace (1 / 2 * (2 * atan2 n (Rabs w))) with (atan2 n (Rabs w)) by field.
      rewrite AC, AS. unfold vscal. gcbn.
      assert (Z : n * / n' = 1 \/ n * / n' = - 1).
      { assert (n' = n \/ n' = - n) as [-> | ->].
        { assert ((n' - n) * (n' + n) = 0) as D by (rewrite Rmult_plus_distr_l; lra).
          apply Rmult_integral in D. destruct D; [left|right]; lra. }
        - left. field. lra.
        - right. field. lra. }
      assert (ZW : Rabs w = n * / n' * w).
      { apply (Rmult_eq_reg_l n'); [|exact N1]. rewrite N3. field. exact N1. }
      rewrite ZW.
      replace (n * (/ n' * x)) with (n * / n' * x) by ring.
      replace (n * (/ n' * y)) with (n * / n' * y) by ring.
      replace (n * (/ n' * z)) with (n * / n' * z) by ring.
      destruct Z as [-> | ->].
      * now rewrite !Rmult_1_l.
      * replace (-1 * w) with (- w) by ring. replace (-1 * x) with (- x) by ring.
        replace (-1 * y) with (- y) by ring. replace (-1 * z) with (- z) by ring.
        apply quatToMat_opp.
Qed.

Lemma quatToAA_zero q : unit_quat q -> ang (quatToAA q) = 0 ->
  quatToMat q = mid.
Proof.
  intros U E. destruct (quatToAA_spec q U) as (UA & _ & <-).
  destruct (quatToAA q) as [t [x y z]]. gcbn. subst t.
  unfold aaToMat, vscal, mid. gcbn. rewrite cos_0, sin_0. f_equal; ring.
Qed.

(** ** Elementary rotations and roll-pitch-yaw *)
Lemma axisMat_rot a x : is_rot (axisMat a x).
Proof.
  pose proof (sin2_cos2 x) as SC. unfold Rsqr in SC.
  destruct a; unfold is_rot, axisMat, mmul, mT, mid, mdet; gcbn;
    set (s := sin x) in *; set (c := cos x) in *;
    split; [f_equal; lra | lra | f_equal; lra | lra | f_equal; lra | lra].
Qed.

Lemma axisMat_aa x :
  aaToMat (AA x unitX) = axisMat AXIS_X x /\
  aaToMat (AA x unitY) = axisMat AXIS_Y x /\
  aaToMat (AA x unitZ) = axisMat AXIS_Z x.
Proof.
  repeat split; unfold aaToMat, axisMat, vscal, unitX, unitY, unitZ; gcbn;
    f_equal; ring.
Qed.

Lemma rPYToMatrix_product r :
  rPYToMatrix r = mmul (mmul (axisMat AXIS_Z (vz r)) (axisMat AXIS_Y (vy r)))
                       (axisMat AXIS_X (vx r)).
Proof.
  unfold rPYToMatrix.
  assert (U : forall x u, vdot u u = 1 -> unit_quat (aaToQuat (AA x u))).
  { intros x u H. apply aaToQuat_unit. exact H. }
  assert (unit_quat (aaToQuat (AA (vx r) unitX))) as UX
    by (apply U; unfold vdot, unitX; gcbn; ring).
  assert (unit_quat (aaToQuat (AA (vy r) unitY))) as UY
    by (apply U; unfold vdot, unitY; gcbn; ring).
  assert (unit_quat (aaToQuat (AA (vz r) unitZ))) as UZ
    by (apply U; unfold vdot, unitZ; gcbn; ring).
  rewrite quatToMat_mul; [|apply qmul_unit; assumption|assumption].
  rewrite quatToMat_mul by assumption.
  rewrite !aaToMat_quat by (unfold unit_axis, vdot, unitX, unitY, unitZ; gcbn; ring).
  destruct (axisMat_aa (vx r)) as (-> & _).
  destruct (axisMat_aa (vy r)) as (_ & -> & _).
  destruct (axisMat_aa (vz r)) as (_ & _ & ->). reflexivity.
Qed.

Lemma eulerAngles_spec m : is_rot m -> rPYToMatrix (reverse (eulerAngles210 m)) = m.
Proof.
  intros Hr. rewrite rPYToMatrix_product. unfold reverse.
  cbn [vx vy vz].
  destruct (rot_cof m Hr) as (C0&C1&C2&C3&C4&C5&C6&C7&C8).
  destruct (rot_rows m Hr) as (R0&R1&R2&R3&R4&R5).
  destruct (rot_cols m Hr) as (L0&L1&L2&L3&L4&L5).
  destruct m as [a b c d e f g h i]. unfold eulerAngles210. gcbn.
  set (r0 := atan2 d a).
  destruct (atan2_spec d a) as [A0 A1]. fold r0 in A0, A1.
  set (c2 := sqrt (i * i + h * h)).
  assert (K2 : sqrt (a * a + d * d) = c2) by (unfold c2; f_equal; lra).
  rewrite K2 in A0, A1.
  assert (CC2 : c2 * c2 = 1 - g * g).
  { unfold c2. rewrite sqrt_sqrt by nra. lra. }
  set (flip := if Rlt_dec r0 0 then true else false). clearbody flip.
  set (r0' := if flip then r0 + PI else r0).
  set (sg := if flip then - c2 else c2).
  assert (B : sg * cos r0' = a /\ sg * sin r0' = d).
  { unfold sg, r0'. destruct flip; [rewrite neg_cos, neg_sin|]; split; lra. }
  destruct B as [B0 B1].
  set (r1 := if flip then atan2 (- g) (- c2) else atan2 (- g) c2).
  assert (D : cos r1 = sg /\ sin r1 = - g).
  { unfold r1, sg. destruct flip; apply atan2_unit; lra. }
  destruct D as [D0 D1].
  unfold mmul, axisMat. gcbn.
  pose proof (sin2_cos2 r0') as SC. unfold Rsqr in SC.
  set (s1 := sin r0') in *. set (c1 := cos r0') in *.
  rewrite D0, D1. clear D0 D1 r1.
  clearbody s1 c1. clear A0 A1 K2 r0'.
  (* the middle row of Rz(-r0) M *)
  set (y := s1 * c - c1 * f). set (x := c1 * e - s1 * b).
  assert (SG : sg * sg = 1 - g * g) by (unfold sg; destruct flip; lra).
  clearbody sg. clear CC2 c2 r0 flip.
  assert (Z : c1 * d - s1 * a = 0).
  { rewrite <- B0, <- B1. ring. }
  assert (XY : x * x + y * y = 1).
  { unfold x, y.
    transitivity ((c1 * c1) * (d * d + e * e + f * f)
                  + (s1 * s1) * (a * a + b * b + c * c)
                  - 2 * (s1 * c1) * (a * d + b * e + c * f)
                  - (c1 * d - s1 * a) * (c1 * d - s1 * a)); [ring|].
    rewrite R3, R0, R1, Z. lra. }
  destruct (atan2_unit y x XY) as [E0 E1].
  fold x y. rewrite E0, E1.
  (* third row: column products; first rows: back substitution *)
  assert (G0 : c1 * c1 = 1 - s1 * s1) by lra.
  assert (Hh : sg * y = h).
  { unfold y. replace (sg * (s1 * c - c1 * f)) with ((sg * s1) * c - (sg * c1) * f) by ring.
    rewrite B0, B1. lra. }
  assert (Hi : sg * x = i).
  { unfold x. replace (sg * (c1 * e - s1 * b)) with ((sg * c1) * e - (sg * s1) * b) by ring.
    rewrite B0, B1. lra. }
  assert (Wb : c1 * b + s1 * e = - g * y).
  { unfold y.
    transitivity (c1 * (c * h * 0 + (f * g - d * i)) + s1 * (a * i - c * g));
      [rewrite C3, C4; ring|].
    replace (c1 * (c * h * 0 + (f * g - d * i)) + s1 * (a * i - c * g))
      with (- g * (s1 * c - c1 * f) - i * (c1 * d - s1 * a)) by ring.
    rewrite Z. ring. }
  assert (Wc : c1 * c + s1 * f = - g * x).
  { unfold x.
    transitivity (c1 * (d * h - e * g) + s1 * (b * g - a * h));
      [rewrite C6, C7; ring|].
    replace (c1 * (d * h - e * g) + s1 * (b * g - a * h))
      with (- g * (c1 * e - s1 * b) + h * (c1 * d - s1 * a)) by ring.
    rewrite Z. ring. }
  f_equal.
  - rewrite <- B0. ring.
  - transitivity (c1 * (- g * y) - s1 * x); [ring|]. rewrite <- Wb.
    unfold x. transitivity (b * (c1 * c1 + s1 * s1)); [ring|]. rewrite G0. ring.
  - transitivity (c1 * (- g * x) + s1 * y); [ring|]. rewrite <- Wc.
    unfold y. transitivity (c * (c1 * c1 + s1 * s1)); [ring|]. rewrite G0. ring.
  - rewrite <- B1. ring.
  - transitivity (s1 * (- g * y) + c1 * x); [ring|]. rewrite <- Wb.
    unfold x. transitivity (e * (c1 * c1 + s1 * s1)); [ring|]. rewrite G0. ring.
  - transitivity (s1 * (- g * x) - c1 * y); [ring|]. rewrite <- Wc.
    unfold y. transitivity (f * (c1 * c1 + s1 * s1)); [ring|]. rewrite G0. ring.
  - ring.
  - rewrite <- Hh. ring.
  - rewrite <- Hi. ring.
Qed.
