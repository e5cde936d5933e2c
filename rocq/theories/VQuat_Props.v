(** Properties of the quaternion class (C129). *)
From Coq Require Import Reals Lra Psatz.
From Verif Require Import Geom_Model Geom_Facts VQuat_Model.
Local Open Scope R_scope.

(** Specification: squared norm, unit quaternions, the opposite (the same rotation). *)
Definition sqn (q : vquat) : R := c0 q * c0 q + c1 q * c1 q + c2 q * c2 q + c3 q * c3 q.
Definition qopp (q : vquat) : vquat := VQ (- c0 q) (- c1 q) (- c2 q) (- c3 q).

(** The matrix of a product is the product of the matrices, the matrix of the conjugate is the transpose, the norm of a
    product is the product of the norms, and q times its conjugate is the norm: for every quaternion. *)
Theorem quaternion_product p q :
  toMatrix (multiply p q) = mmul (toMatrix p) (toMatrix q) /\ toMatrix (conjugate p) = mT (toMatrix p) /\
  sqn (multiply p q) = sqn p * sqn q /\ multiply p (conjugate p) = VQ (sqn p) 0 0 0.
Proof.
  destruct p as [a b c d], q as [e f g h]. unfold toMatrix, multiply, conjugate, mmul, mT, sqn; cbn.
  repeat split; try ring; f_equal; ring.
Qed.

(** A unit quaternion gives a rotation, and the opposite quaternion the same one. *)
Theorem quaternion_rotation q : sqn q = 1 -> is_rot (toMatrix q) /\ toMatrix (qopp q) = toMatrix q.
Proof.
  destruct q as [a b c d]. unfold sqn; cbn. intro N. split.
  - split.
    + assert (P : mmul (toMatrix (VQ a b c d)) (mT (toMatrix (VQ a b c d))) = mscal ((a * a + b * b + c * c + d * d) * (a * a + b * b + c * c + d * d)) mid).
      { unfold toMatrix, mmul, mT, mscal, mid; cbn. f_equal; ring. }
      rewrite P, N. unfold mscal, mid; cbn. f_equal; ring.
    + assert (P : mdet (toMatrix (VQ a b c d)) = (a * a + b * b + c * c + d * d) * ((a * a + b * b + c * c + d * d) * (a * a + b * b + c * c + d * d))).
      { unfold toMatrix, mdet; cbn. ring. }
      rewrite P, N. ring.
  - unfold toMatrix, qopp; cbn. f_equal; ring.
Qed.

(** Back from the matrix: when the rotation is not a half turn (the real part is not zero), the quaternion or its opposite,
    the one with a positive real part.  Missing: the half turns, for which it is false (quaternion_half_turn_refuted). *)
Lemma sqrt_4sq r : sqrt (4 * (r * r)) = 2 * Rabs r.
Proof. replace (4 * (r * r)) with ((2 * r) * (2 * r)) by ring. change ((2 * r) * (2 * r)) with (Rsqr (2 * r)). rewrite sqrt_Rsqr_abs, Rabs_mult. f_equal. apply Rabs_pos_eq. lra. Qed.

Theorem quaternion_of_matrix_partial q : sqn q = 1 -> c0 q <> 0 ->
  fromMatrix (toMatrix q) = Some (if Rlt_dec 0 (c0 q) then q else qopp q).
Proof.
  destruct q as [r x y z]. unfold sqn, fromMatrix, qopp; cbn. intros N Hr.
  assert (T : 1 + (r * r + x * x - y * y - z * z) + (r * r - x * x + y * y - z * z) + (r * r - x * x - y * y + z * z) = 4 * (r * r)) by lra.
  rewrite T, sqrt_4sq. assert (P : 0 < r * r) by (destruct (Rtotal_order r 0) as [L|[L|L]]; [nra|contradiction|nra]).
  destruct (Rlt_dec 0 (4 * (r * r))) as [_|W]; [|exfalso; apply W; lra].
  destruct (Rlt_dec 0 r) as [L|L].
  - rewrite Rabs_pos_eq by lra. f_equal. f_equal; field; lra.
  - rewrite Rabs_left by lra. f_equal. f_equal; field; lra.
Qed.

(** A half turn is never given back: whatever the axis, the result of fromMatrix, if there is one, is neither the
    quaternion nor its opposite. *)
Theorem quaternion_half_turn_refuted q q' : sqn q = 1 -> c0 q = 0 -> fromMatrix (toMatrix q) = Some q' -> q' <> q /\ q' <> qopp q.
Proof.
  destruct q as [r x y z]. unfold sqn, fromMatrix, half_over_root, qopp; cbn. intros N ->.
  assert (T : 1 + (0 * 0 + x * x - y * y - z * z) + (0 * 0 - x * x + y * y - z * z) + (0 * 0 - x * x - y * y + z * z) = 0) by lra.
  assert (D : 1 + (0 * 0 + x * x - y * y - z * z) - (0 * 0 - x * x + y * y - z * z) - (0 * 0 - x * x - y * y + z * z) = 4 * (x * x)) by lra.
  rewrite T, D. destruct (Rlt_dec 0 0) as [W|_]; [lra|]. destruct (Rlt_dec 0 (4 * (x * x))) as [P|_]; [|discriminate].
  rewrite sqrt_4sq. set (s := / 2 / (2 * Rabs x)).
  assert (X : 0 < Rabs x) by (apply Rabs_pos_lt; intros ->; lra).
  assert (XX : Rabs x * Rabs x = x * x) by (rewrite <- Rabs_mult; apply Rabs_pos_eq; nra).
  assert (S : 4 * s * Rabs x = 1) by (unfold s; field; lra). assert (S2 : 16 * (s * s) * (x * x) = 1) by (rewrite <- XX; nra).
  assert (S0 : 0 < s) by nra.
  assert (B : forall a b : R, (a = b \/ a = - b) -> a * a = b * b) by (intros a b [-> | ->]; ring).
  assert (G : forall A b c d, Some (VQ A b c d) = Some q' -> (b * b <> x * x \/ c * c <> y * y \/ d * d <> z * z) -> q' <> VQ 0 x y z /\ q' <> VQ (- 0) (- x) (- y) (- z)).
  { intros A b c d E Hn. injection E as <-. split; intros E; injection E as E0 E1 E2 E3; (destruct Hn as [Hn|[Hn|Hn]]; apply Hn; apply B); auto. }
  assert (B1 : (/ 2 * s) * (/ 2 * s) * (64 * (x * x)) = 1) by nra.
  destruct (Rlt_dec (0 * 0 - x * x + y * y - z * z) (0 * 0 + x * x - y * y - z * z)) as [L1|L1];
    [destruct (Rlt_dec (0 * 0 - x * x - y * y + z * z) (0 * 0 + x * x - y * y - z * z)) as [L2|L2]|].
  - intro E. refine (G _ _ _ _ E _). left. intro K. rewrite K in B1. nra.
  - destruct (Rlt_dec _ _) as [L3|L3]; intro E; refine (G _ _ _ _ E _).
    + lra.
    + destruct (Req_dec ((/ 2 * s) * (/ 2 * s)) (z * z)) as [K|K]; [|right; right; exact K]. left. intro K1. nra.
  - destruct (Rlt_dec _ _) as [L3|L3]; intro E; refine (G _ _ _ _ E _).
    + destruct (Req_dec ((/ 2 * s) * (/ 2 * s)) (y * y)) as [K|K]; [|right; left; exact K]. left. intro K1. nra.
    + destruct (Req_dec ((/ 2 * s) * (/ 2 * s)) (z * z)) as [K|K]; [|right; right; exact K]. left. intro K1. nra.
Qed.
Theorem quaternion_half_turn_undefined_refuted q : sqn q = 1 -> c0 q = 0 -> (fromMatrix (toMatrix q) = None <-> c1 q = 0).
Proof.
  destruct q as [r x y z]. unfold sqn, fromMatrix, half_over_root; cbn. intros N ->.
  assert (T : 1 + (0 * 0 + x * x - y * y - z * z) + (0 * 0 - x * x + y * y - z * z) + (0 * 0 - x * x - y * y + z * z) = 0) by lra.
  assert (D : 1 + (0 * 0 + x * x - y * y - z * z) - (0 * 0 - x * x + y * y - z * z) - (0 * 0 - x * x - y * y + z * z) = 4 * (x * x)) by lra.
  rewrite T, D. destruct (Rlt_dec 0 0) as [W|_]; [lra|]. destruct (Rlt_dec 0 (4 * (x * x))) as [P|P].
  - split; [|intros ->; lra]. repeat destruct (Rlt_dec _ _); discriminate.
  - split; [intros _; nra|reflexivity].
Qed.

(** From a rotation vector: the result is never a unit quaternion (so never that of a rotation), and there is none for
    the null rotation. *)
Theorem quaternion_of_vector_refuted u :
  match fromVector u with
  | None => sin (vnorm u) = 0
  | Some q => 1 < sqn q
  end.
Proof.
  unfold fromVector. fold (vdot u u). fold (vnorm u). set (t := vnorm u).
  assert (T0 : 0 <= t) by apply sqrt_pos. destruct (Req_EM_T (sin t) 0) as [E|E]; [exact E|]. unfold sqn; cbn.
  assert (S : vx u * vx u + vy u * vy u + vz u * vz u = t * t).
  { unfold t, vnorm. rewrite sqrt_sqrt; [reflexivity|]. unfold vdot. nra. }
  replace (vx u / sin t * (vx u / sin t) + vy u / sin t * (vy u / sin t) + vz u / sin t * (vz u / sin t) + cos t * cos t)
    with ((vx u * vx u + vy u * vy u + vz u * vz u) / (sin t * sin t) + cos t * cos t) by (field; exact E).
  rewrite S. pose proof (sin2_cos2 t) as P. unfold Rsqr in P.
  assert (T : 0 < t) by (destruct T0 as [L|L]; [exact L|exfalso; apply E; rewrite <- L; apply sin_0]).
  assert (Q : 0 < sin t * sin t) by (destruct (Rtotal_order (sin t) 0) as [L|[L|L]]; [nra|contradiction|nra]).
  assert (L : sin t * sin t < t * t).
  { destruct (Rle_dec t 1) as [L|L].
    - pose proof (sin_lt_x t T). assert (0 < sin t) by (apply sin_gt_0; [exact T|pose proof PI_RGT_0; pose proof PI2_1; lra]). nra.
    - pose proof (SIN_bound t). nra. }
  assert (K : 1 < t * t / (sin t * sin t)).
  { apply (Rmult_lt_reg_r (sin t * sin t)); [exact Q|]. unfold Rdiv. rewrite Rmult_assoc, Rinv_l by lra. lra. }
  nra.
Qed.

(** A rotation around z; half turns around x and around z. *)
Example quaternion_cases :
  sqn (VQ (3 / 5) 0 0 (4 / 5)) = 1 /\ c0 (VQ (3 / 5) 0 0 (4 / 5)) <> 0 /\
  toMatrix (VQ (3 / 5) 0 0 (4 / 5)) = M3 (-7 / 25) (-24 / 25) 0 (24 / 25) (-7 / 25) 0 0 0 1 /\
  fromMatrix (toMatrix (VQ 0 1 0 0)) = Some (VQ 0 (1 / 8) 0 0) /\ fromMatrix (toMatrix (VQ 0 0 0 1)) = None /\
  fromVector (V3 0 0 0) = None.
Proof.
  split; [unfold sqn; cbn; field|]. split; [cbn; lra|]. split; [unfold toMatrix; cbn; f_equal; field|].
  split; [|split; [apply quaternion_half_turn_undefined_refuted; unfold sqn; cbn; lra|]].
  - unfold fromMatrix, half_over_root; cbn. destruct (Rlt_dec _ _) as [W|_]; [lra|].
    destruct (Rlt_dec _ _) as [_|W]; [|lra]. destruct (Rlt_dec _ _) as [_|W]; [|lra]. destruct (Rlt_dec _ _) as [_|W]; [|lra].
    replace (1 + (0 * 0 + 1 * 1 - 0 * 0 - 0 * 0) - (0 * 0 - 1 * 1 + 0 * 0 - 0 * 0) - (0 * 0 - 1 * 1 - 0 * 0 + 0 * 0)) with (2 * 2) by ring.
    rewrite sqrt_square by lra. f_equal. f_equal; field.
  - unfold fromVector; cbn. replace (0 * 0 + 0 * 0 + 0 * 0) with 0 by ring. rewrite sqrt_0, sin_0. destruct (Req_EM_T 0 0); [reflexivity|contradiction].
Qed.

Print Assumptions quaternion_product.
Print Assumptions quaternion_rotation.
Print Assumptions quaternion_of_matrix_partial.
Print Assumptions quaternion_half_turn_refuted.
Print Assumptions quaternion_half_turn_undefined_refuted.
Print Assumptions quaternion_of_vector_refuted.
