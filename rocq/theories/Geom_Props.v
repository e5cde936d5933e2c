(** C50, C51, C53: conversions between pose representations, twist matrices,
    rotations from axis sequences. *)
From Coq Require Import String List Arith Lia ZArith Bool Reals Lra Psatz.
From Verif Require Import Base Geom_Model Geom_Facts Geom_Rot.
Import ListNotations.
Local Open Scope R_scope.

(** ** Specification
    A rotation is an orthonormal matrix of determinant one ([is_rot]); a rigid
    transformation is a rotation and a translation ([is_rigid], Geom_Facts).
    A pose p stands for the map x |-> R x + t on points. *)

(** Velocity at point [p] of a rigid body with linear velocity [fst n] at the
    origin and angular velocity [snd n]. *)
Definition field (n : vec3 * vec3) (p : vec3) : vec3 :=
  vadd (fst n) (cross (snd n) p).

(* ---------------------------------------------------------------- *)
(** ** C50 *)

(** Homogeneous matrix <-> 12-vector: both round trips are the identity. *)
Theorem se3_vector_roundtrip :
  (forall m, sE3VectorToMatrixHomo (matrixHomoToSE3Vector m) = Ok m) /\
  (forall v, length v = 12%nat ->
     exists m, sE3VectorToMatrixHomo v = Ok m /\ matrixHomoToSE3Vector m = v).
Proof.
  split.
  - intros [[a b c d e f g h i] [x y z]]. reflexivity.
  - intros v Hl.
    do 12 (destruct v as [|? v]; [discriminate Hl|]).
    destruct v; [|discriminate Hl].
    eexists. split; reflexivity.
Qed.

(** A 12-vector that is too short is undefined behaviour. *)
Theorem se3_vector_short v :
  (length v < 12)%nat -> sE3VectorToMatrixHomo v = UB.
Proof.
  intros H. do 12 (destruct v as [|? v]; [reflexivity|]). cbn in H. lia.
Qed.

(** Pose -> translation and quaternion -> pose. *)
Theorem pose_quaternion_roundtrip m : is_rigid m ->
  poseQuaternionToMatrixHomo (matrixHomoToPoseQuaternion m) = Ok m.
Proof.
  destruct m as [r [x y z]]. intros Hr.
  pose proof (proj1 (quat_of_mat _ _ (matToQuat_of r Hr))) as E.
  unfold matrixHomoToPoseQuaternion, poseQuaternionToMatrixHomo. gcbn.
  cbn. destruct (matToQuat r) as [qw0 qx0 qy0 qz0]. gcbn. now rewrite E.
Qed.

(** Rotation -> unit quaternion -> rotation, and the quaternion is recovered
    up to the sign (both signs are the same rotation). *)
Theorem quaternion_roundtrip :
  (forall m, is_rot m ->
     unit_quat (matrixToQuaternion m) /\
     quaternionToMatrix (matrixToQuaternion m) = m) /\
  (forall q, unit_quat q ->
     is_rot (quaternionToMatrix q) /\
     let q' := matrixToQuaternion (quaternionToMatrix q) in
     q' = q \/ q' = Q (- qw q) (- qx q) (- qy q) (- qz q)).
Proof.
  split.
  - intros m Hr. destruct (quat_of_mat _ _ (matToQuat_of m Hr)). split; assumption.
  - intros q U. split; [apply quatToMat_rot, U|].
    apply (quat_of_unique (quatToMat q)); [apply quat_of_self, U|].
    apply matToQuat_of, quatToMat_rot, U.
Qed.

(** The product and the inverse of quaternions are those of the rotations. *)
Theorem quaternion_product_inverse q q' : unit_quat q -> unit_quat q' ->
  quaternionToMatrix (qmul q q')
    = mmul (quaternionToMatrix q) (quaternionToMatrix q') /\
  mmul (quaternionToMatrix q) (quaternionToMatrix (inverserQuaternion q)) = mid.
Proof.
  intros U U'. split; [apply quatToMat_mul; assumption|].
  unfold quaternionToMatrix, inverserQuaternion. rewrite quatToMat_conj.
  apply rot_mT_r, quatToMat_rot, U.
Qed.

Theorem rotation_inverse m : is_rot m ->
  mmul m (inverserRotation m) = mid /\ mmul (inverserRotation m) m = mid.
Proof. intros H. split; [apply rot_mT_r, H | apply rot_mT_l, H]. Qed.

(** Pose -> roll, pitch, yaw -> pose, including the gimbal-lock poses. *)
Theorem pose_rpy_roundtrip m : is_rigid m ->
  poseRollPitchYawToMatrixHomo (matrixHomoToPoseRollPitchYaw m) = Ok m.
Proof.
  destruct m as [r [x y z]]. intros Hr.
  pose proof (eulerAngles_spec r Hr) as E.
  unfold matrixHomoToPoseRollPitchYaw, poseRollPitchYawToMatrixHomo. gcbn.
  destruct (reverse (eulerAngles210 r)) as [a b c]. cbn.
  change (vx (V3 x y z)) with x. now rewrite E.
Qed.

Theorem rpy_roundtrip m : is_rot m -> rPYToMatrix (matrixToRPY m) = m.
Proof. apply eulerAngles_spec. Qed.

(** The angles themselves are not always recovered: a negative yaw comes back
    as another triple of angles of the same rotation. *)
Theorem rpy_angles_refuted :
  let r := V3 0 0 (- (PI / 2)) in
  vz (matrixToRPY (rPYToMatrix r)) = PI / 2 /\
  matrixToRPY (rPYToMatrix r) <> r /\
  rPYToMatrix (matrixToRPY (rPYToMatrix r)) = rPYToMatrix r.
Proof.
  intros r. pose proof PI_RGT_0.
  assert (E : vz (matrixToRPY (rPYToMatrix r)) = PI / 2).
  { assert (EM : rPYToMatrix r = M3 0 1 0 (-1) 0 0 0 0 1).
    { rewrite rPYToMatrix_product. unfold r, mmul, axisMat. gcbn.
      rewrite sin_neg, cos_neg, sin_PI2, cos_PI2, sin_0, cos_0. f_equal; ring. }
    rewrite EM. unfold matrixToRPY, reverse, eulerAngles210. gcbn.
    unfold atan2.
    destruct (Rlt_dec 0 0); [lra|]. destruct (Rlt_dec 0 (-1)); [lra|].
    destruct (Rlt_dec (-1) 0); [|lra].
    destruct (Rlt_dec (- (PI / 2)) 0); lra. }
  split; [exact E|]. split.
  - intros F. rewrite F in E. unfold r in E. gcbn. lra.
  - apply rpy_roundtrip. rewrite rPYToMatrix_product.
    repeat apply rot_mul; apply axisMat_rot.
Qed.

(** Roll-pitch-yaw is the product of elementary rotations about the fixed x,
    y, z axes, and always a rotation. *)
Theorem rpy_is_rotation r :
  is_rot (rPYToMatrix r) /\
  rPYToMatrix r = mmul (mmul (axisMat AXIS_Z (vz r)) (axisMat AXIS_Y (vy r)))
                       (axisMat AXIS_X (vx r)).
Proof.
  split; [|apply rPYToMatrix_product].
  rewrite rPYToMatrix_product. repeat apply rot_mul; apply axisMat_rot.
Qed.

Lemma vnorm_vscal_unit k u : 0 <= k -> vdot u u = 1 -> vnorm (vscal k u) = k.
Proof.
  intros Hk U. unfold vnorm.
  replace (vdot (vscal k u) (vscal k u)) with (k * k * vdot u u)
    by (unfold vdot, vscal; cbn [vx vy vz]; ring).
  rewrite U, Rmult_1_r. apply sqrt_square, Hk.
Qed.

Lemma utheta_matrix t u v :
  poseUThetaToMatrixHomo (vlist t ++ vlist u) = Ok v ->
  forall r, unit_quat r ->
  u = vscal (ang (quatToAA r)) (axis (quatToAA r)) ->
  v = H (quatToMat r) t.
Proof.
  intros E r U Eu. destruct (quatToAA_spec r U) as (UA & (A0 & A1) & EM).
  destruct t as [x y z].
  unfold poseUThetaToMatrixHomo, tail3, vlist in E. cbn in E.
  injection E as <-. f_equal.
  replace (V3 (vx u) (vy u) (vz u)) with u by (destruct u; reflexivity).
  rewrite Eu, (vnorm_vscal_unit _ _ A0 UA).
  destruct (Rlt_dec 0 (ang (quatToAA r))) as [P|P].
  - rewrite <- EM. f_equal. destruct (quatToAA r) as [th [a b c]]. gcbn.
    f_equal. unfold vscal. gcbn. f_equal; field; lra.
  - symmetry. apply quatToAA_zero; [exact U|lra].
Qed.

(** Pose -> translation and rotation vector -> pose. *)
Theorem pose_utheta_roundtrip m : is_rigid m ->
  poseUThetaToMatrixHomo (matrixHomoToPoseUTheta m) = Ok m.
Proof.
  destruct m as [r [x y z]]. intros Hr.
  destruct (quat_of_mat _ _ (matToQuat_of r Hr)) as [E U].
  unfold matrixHomoToPoseUTheta. gcbn.
  destruct (poseUThetaToMatrixHomo _) as [h| |] eqn:P; try discriminate P.
  - f_equal. rewrite (utheta_matrix _ _ _ P (matToQuat r) U eq_refl).
    now rewrite E.
Qed.

(** The rotation vector has length at most PI. *)
Theorem utheta_range m : is_rot m ->
  unit_axis (matrixToUTheta m) /\ 0 <= ang (matrixToUTheta m) <= PI /\
  aaToMat (matrixToUTheta m) = m /\
  quaternionToMatrix (uThetaToQuaternion (matrixToUTheta m)) = m.
Proof.
  intros Hr. destruct (quat_of_mat _ _ (matToQuat_of m Hr)) as [E U].
  destruct (quatToAA_spec _ U) as (UA & B & EM). rewrite E in EM.
  repeat split; try exact UA; try apply B; try exact EM.
  unfold quaternionToMatrix, uThetaToQuaternion, matrixToUTheta, matToAA in *.
  rewrite aaToMat_quat by exact UA. exact EM.
Qed.

(** Rotation vector -> matrix -> rotation vector, below a half turn. *)
Lemma atan2_sincos t : 0 < t < PI / 2 -> atan2 (sin t) (cos t) = t.
Proof.
  intros [A B]. assert (C : 0 < cos t) by (apply cos_gt_0; lra).
  unfold atan2. destruct (Rlt_dec 0 (cos t)); [|lra].
  change (sin t / cos t) with (tan t). apply atan_tan. lra.
Qed.

Lemma aa_canonical th u : 0 < th < PI -> vdot u u = 1 ->
  quatToAA (aaToQuat (AA th u)) = AA th u /\
  (let q := aaToQuat (AA th u) in
   quatToAA (Q (- qw q) (- qx q) (- qy q) (- qz q)) = AA th u).
Proof.
  intros [A B] U.
  assert (S : 0 < sin (1 / 2 * th)) by (apply sin_gt_0; lra).
  assert (C : 0 < cos (1 / 2 * th)) by (apply cos_gt_0; lra).
  destruct u as [x y z]. unfold aaToQuat. gcbn. cbv zeta. gcbn.
  set (s := sin (1 / 2 * th)) in *. set (c := cos (1 / 2 * th)) in *.
  unfold quatToAA. gcbn.
  assert (N1 : vnorm (V3 (s * x) (s * y) (s * z)) = s).
  { change (V3 (s * x) (s * y) (s * z)) with (vscal s (V3 x y z)).
    apply vnorm_vscal_unit; [lra|exact U]. }
  assert (N2 : vnorm (V3 (- (s * x)) (- (s * y)) (- (s * z))) = s).
  { transitivity (vnorm (V3 (s * x) (s * y) (s * z))); [|exact N1]. unfold vnorm, vdot. gcbn. f_equal. ring. }
  rewrite N1, N2. destruct (Req_EM_T s 0); [lra|].
  rewrite Rabs_Ropp, (Rabs_right c) by lra.
  assert (E : atan2 s c = 1 / 2 * th).
  { unfold s, c. apply atan2_sincos. lra. }
  rewrite E. destruct (Rlt_dec c 0); [lra|]. destruct (Rlt_dec (- c) 0); [|lra].
  unfold vscal. gcbn. split; f_equal; try field; f_equal; field; lra.
Qed.

Theorem utheta_vector_roundtrip t u : vnorm u < PI ->
  exists m, poseUThetaToMatrixHomo (vlist t ++ vlist u) = Ok m /\
    is_rigid m /\ matrixHomoToPoseUTheta m = vlist t ++ vlist u.
Proof.
  intros Hn. destruct t as [a b c], u as [x y z].
  unfold poseUThetaToMatrixHomo, tail3, vlist. cbn.
  eexists. split; [reflexivity|].
  set (u := V3 x y z) in *. set (th := vnorm u) in *.
  assert (Hth : th * th = vdot u u).
  { unfold th, vnorm. apply sqrt_sqrt. unfold vdot. nra. }
  destruct (Rlt_dec 0 th) as [P|P].
  - assert (U : vdot (vscal (/ th) u) (vscal (/ th) u) = 1).
    { transitivity (/ th * / th * vdot u u);
        [unfold vdot, vscal; cbn [vx vy vz]; ring|].
      rewrite <- Hth. field. lra. }
    set (A := AA th (vscal (/ th) u)).
    assert (Hrot : is_rot (aaToMat A)) by (apply aaToMat_rot; exact U).
    split; [exact Hrot|].
    unfold matrixHomoToPoseUTheta, matToAA. gcbn. cbn [trn lin].
    destruct (aa_canonical th (vscal (/ th) u) ltac:(lra) U) as [K1 K2].
    pose proof (aaToQuat_unit A U) as UQ.
    assert (EA : quatToAA (matToQuat (aaToMat A)) = A).
    { destruct (quat_of_unique (aaToMat A) (aaToQuat A) (matToQuat (aaToMat A)))
        as [-> | ->].
      - rewrite <- (aaToMat_quat A U). apply quat_of_self, UQ.
      - apply matToQuat_of, Hrot.
      - exact K1.
      - exact K2. }
    rewrite EA. unfold A. gcbn. unfold vscal, u, vlist. gcbn. cbn [app].
    assert (F : forall k, th * (/ th * k) = k) by (intros; field; lra).
    rewrite !F. reflexivity.
  - assert (th = 0) as Z by (pose proof (sqrt_pos (vdot u u)); unfold th, vnorm in *; lra).
    rewrite Z, Rmult_0_l in Hth. unfold vdot, u in Hth. gcbn.
    assert (x = 0 /\ y = 0 /\ z = 0) as (-> & -> & ->) by (repeat split; nra).
    split; [exact rot_id|].
    unfold matrixHomoToPoseUTheta, matToAA. gcbn. cbn [trn lin].
    assert (EQ : matToQuat mid = Q 1 0 0 0).
    { unfold matToQuat, mid. gcbn. destruct (Rlt_dec 0 (1 + 1 + 1)); [|lra].
      replace (1 + 1 + 1 + 1) with (2 * 2) by ring. rewrite sqrt_square by lra.
      f_equal; field. }
    rewrite EQ. unfold quatToAA. gcbn.
    assert (EN : vnorm (V3 0 0 0) = 0).
    { unfold vnorm, vdot. gcbn. replace (0 * 0 + 0 * 0 + 0 * 0) with 0 by ring. apply sqrt_0. }
    rewrite EN. destruct (Req_EM_T 0 0); [|lra].
    unfold vlist, vscal. gcbn. cbn [app].
    rewrite !Rmult_0_l. reflexivity.
Qed.

(** Going through the rotation vector or directly gives the same pose. *)
Theorem rpy_utheta_commute v p :
  poseRollPitchYawToPoseUTheta v = Ok p ->
  poseUThetaToMatrixHomo p = poseRollPitchYawToMatrixHomo v.
Proof.
  unfold poseRollPitchYawToPoseUTheta, poseRollPitchYawToMatrixHomo.
  destruct (get3 v 3) as [r| |]; try discriminate. cbn [bind].
  destruct (get3 v 0) as [t| |]; try discriminate. cbn [bind].
  intros E. pose proof (proj1 (rpy_is_rotation r)) as Hr.
  assert (p = matrixHomoToPoseUTheta (H (rPYToMatrix r) t)) as ->.
  { unfold matrixHomoToPoseUTheta. cbn [lin trn]. congruence. }
  apply pose_utheta_roundtrip. exact Hr.
Qed.

Theorem rpy_quaternion_commute r :
  quaternionToMatrix (rPYToQuaternion r) = rPYToMatrix r /\
  (forall q, unit_quat q -> rPYToMatrix (quaternionToRPY q) = quaternionToMatrix q).
Proof.
  split.
  - apply (proj1 quaternion_roundtrip), rpy_is_rotation.
  - intros q U. apply eulerAngles_spec, quatToMat_rot, U.
Qed.

(** The vector of a skew-symmetric matrix comes back with the opposite
    sign. Missing: the vector itself comes back; false of the code. *)
Theorem skew_to_vector_opposite_partial v : skewSymToVector (skew v) = vopp v.
Proof. destruct v. reflexivity. Qed.

Theorem skew_to_vector_refuted :
  exists v, skewSymToVector (skew v) <> v.
Proof.
  exists (V3 1 0 0). rewrite skew_to_vector_opposite_partial. unfold vopp. gcbn.
  intros E. injection E as E. lra.
Qed.

(** Splitting a pose and composing it again. *)
Theorem composer_roundtrip m : composer (homoToRotation m) (trn m) = m /\
  matrixHomoToPose m = vlist (trn m).
Proof. destruct m. split; reflexivity. Qed.

(* ---------------------------------------------------------------- *)
(** ** C51 *)
Theorem twist_product a b : is_rigid a ->
  buildFrom (hmul a b) = tmul (buildFrom a) (buildFrom b).
Proof.
  intros Ha. unfold buildFrom, tmul, hmul. cbn [lin trn b00 b01 b10 b11].
  f_equal.
  - rewrite mmul_zero_r, madd_zero_r. reflexivity.
  - rewrite skew_vadd, mmul_madd_r, (mmul_assoc (skew (mapp (lin a) (trn b)))),
      (rot_skew _ _ Ha), !mmul_assoc. reflexivity.
  - rewrite mmul_zero_l, mmul_zero_r, madd_zero_l. reflexivity.
  - rewrite mmul_zero_l, madd_zero_l. reflexivity.
Qed.

Theorem twist_identity : buildFrom hid = tid.
Proof.
  unfold buildFrom, hid, tid. gcbn. f_equal. gring.
Qed.

Theorem twist_inverse a : is_rigid a ->
  tmul (buildFrom a) (buildFrom (hinv a)) = tid /\
  tmul (buildFrom (hinv a)) (buildFrom a) = tid.
Proof.
  intros Ha. split.
  - rewrite <- twist_product by exact Ha.
    rewrite hinv_r by (apply rigid_det, Ha). apply twist_identity.
  - rewrite <- twist_product by (apply rigid_inv, Ha).
    rewrite hinv_l by (apply rigid_det, Ha). apply twist_identity.
Qed.

(** The signal operator and the function used by the features agree. *)
Theorem homo_to_twist_same m : HomoToTwist m = buildFrom m.
Proof. reflexivity. Qed.

(** Meaning: the twist matrix changes the frame of a velocity field. *)
Theorem twist_velocity_field m n p : is_rigid m ->
  field (tapp (buildFrom m) n) (happ m p) = mapp (lin m) (field n p).
Proof.
  intros Hm. destruct n as [v w]. unfold field, tapp, buildFrom, happ.
  cbn [fst snd b00 b01 b10 b11].
  rewrite mapp_vadd, (rot_cross _ _ _ Hm), mapp_zero, vadd_v0_l, mapp_mmul,
    skew_app.
  generalize (mapp (lin m) v) (mapp (lin m) w) (mapp (lin m) p) (trn m).
  gring.
Qed.

(** The inverse of a rigid transformation is its inverse, and rigid. *)
Theorem rigid_inverse a : is_rigid a ->
  hmul a (hinv a) = hid /\ hmul (hinv a) a = hid /\ is_rigid (hinv a).
Proof.
  intros Ha. repeat split.
  - apply hinv_r, rigid_det, Ha.
  - apply hinv_l, rigid_det, Ha.
  - apply (rigid_inv a Ha).
  - apply (rigid_inv a Ha).
Qed.

(* ---------------------------------------------------------------- *)
(** ** C53 *)

(** Ordered product of the elementary rotations, left to right. *)
Fixpoint rotations (axes : list axis_t) (angles : list R) : mat3 :=
  match axes, angles with
  | a :: l, x :: r => mmul (axisMat a x) (rotations l r)
  | _, _ => mid
  end.

Lemma rotations_snoc axes angles a x : length axes = length angles ->
  rotations (axes ++ [a]) (angles ++ [x])
  = mmul (rotations axes angles) (axisMat a x).
Proof.
  revert angles. induction axes as [|a0 l IH]; intros [|x0 r] Hl;
    try discriminate Hl; cbn.
  - now rewrite mmul_1_r, mmul_1_l.
  - rewrite IH by (cbn in Hl; congruence). apply mmul_assoc.
Qed.

Lemma rotations_rot axes angles : is_rot (rotations axes angles).
Proof.
  revert angles. induction axes as [|a l IH]; intros [|x r]; cbn; try apply rot_id.
  apply rot_mul; [apply axisMat_rot|apply IH].
Qed.

Lemma firstn_snoc {A} (l : list A) i x :
  nth_error l i = Some x -> firstn (S i) l = firstn i l ++ [x].
Proof.
  revert i. induction l as [|y l IH]; intros [|i] E; try discriminate E.
  - now injection E as ->.
  - change (firstn (S (S i)) (y :: l)) with (y :: firstn (S i) l).
    rewrite (IH i E). reflexivity.
Qed.

Theorem axis_sequence_rotation size axes angles :
  (size <= length axes)%nat -> (size <= length angles)%nat ->
  exists r, computeRotation size axes angles = Ok r /\ is_rot r /\
    r = rotations (firstn size axes) (firstn size angles).
Proof.
  intros Ha Hx. unfold computeRotation.
  match goal with |- context [ofor_range 0 size ?b ?s] =>
    destruct (ofor_range_ind
      (fun i r => r = rotations (firstn i axes) (firstn i angles)) 0 size b s)
      as (r & Er & Pr) end.
  - lia.
  - reflexivity.
  - intros i r Hi Pr. cbn beta.
    destruct (nth_error angles i) as [x|] eqn:Ex;
      [|apply nth_error_None in Ex; lia].
    destruct (nth_error axes i) as [a|] eqn:Ea;
      [|apply nth_error_None in Ea; lia].
    unfold rget, vget. rewrite Ex, Ea. cbn [bind].
    eexists. split; [reflexivity|].
    rewrite (firstn_snoc _ _ _ Ea), (firstn_snoc _ _ _ Ex), rotations_snoc, Pr.
    + reflexivity.
    + rewrite !firstn_length. lia.
  - exists r. split; [exact Er|]. split; [|exact Pr].
    rewrite Pr. apply rotations_rot.
Qed.

Theorem axis_sequence_short size axes angles :
  (length angles < size)%nat -> computeRotation size axes angles = UB \/
  (length axes < size)%nat.
Proof.
  intros Hx. destruct (le_lt_dec size (length axes)) as [Ha|Ha]; [|right; exact Ha].
  left. unfold computeRotation, ofor_range.
  rewrite (Nat.sub_0_r).
  assert (size = length angles + S (size - length angles - 1))%nat as E by lia.
  rewrite E, seq_app, ofold_app.
  destruct (axis_sequence_rotation (length angles) axes angles ltac:(lia) ltac:(lia))
    as (r & Er & _).
  unfold computeRotation, ofor_range in Er. rewrite Nat.sub_0_r in Er.
  rewrite Er. cbn [bind seq ofold]. rewrite Nat.add_0_l.
  unfold rget, vget at 1.
  rewrite (proj2 (nth_error_None angles (length angles)) (le_n _)). reflexivity.
Qed.

(** The entity is constructed with no axis and offers no way to add one
    (vector-to-rotation.cpp:31-37, vector-to-rotation.hh:49-50): its output is
    the identity whatever the angles. *)
Theorem axis_sequence_default_refuted angles :
  computeRotation 0 [] angles = Ok mid.
Proof. reflexivity. Qed.

(* ---------------------------------------------------------------- *)
(** ** Non-vacuity *)
Example ex_rigid : is_rigid (H (axisMat AXIS_Y 1) (V3 1 2 3)).
Proof. apply axisMat_rot. Qed.
Example ex_unit_quat : unit_quat (Q (3 / 5) 0 (4 / 5) 0).
Proof. unfold unit_quat. gcbn. field. Qed.
(** A half turn: the trace is negative, another branch of the conversion. *)
Example ex_half_turn :
  is_rot (M3 1 0 0 0 (-1) 0 0 0 (-1)) /\
  matrixToQuaternion (M3 1 0 0 0 (-1) 0 0 0 (-1)) = Q 0 1 0 0.
Proof.
  split.
  - split; [unfold mmul, mT, mid; gcbn; f_equal; ring | unfold mdet; gcbn; ring].
  - unfold matrixToQuaternion, matToQuat. gcbn.
    destruct (Rlt_dec 0 (1 + -1 + -1)); [lra|].
    destruct (Rlt_dec 1 (-1)); [lra|]. destruct (Rlt_dec 1 (-1)); [lra|].
    replace (1 - -1 - -1 + 1) with (2 * 2) by ring. rewrite sqrt_square by lra.
    f_equal; field.
Qed.
Example ex_axis_sequence :
  computeRotation 2 [AXIS_X; AXIS_Z] [0; PI / 2] =
  Ok (M3 0 (-1) 0 1 0 0 0 0 1).
Proof.
  cbn. unfold mmul, mid, axisMat. gcbn. rewrite sin_0, cos_0, sin_PI2, cos_PI2.
  f_equal. f_equal; ring.
Qed.

Print Assumptions pose_rpy_roundtrip.
Print Assumptions pose_utheta_roundtrip.
Print Assumptions utheta_vector_roundtrip.
Print Assumptions quaternion_roundtrip.
Print Assumptions twist_velocity_field.
Print Assumptions axis_sequence_rotation.

(** Sizes. A pose given by a quaternion takes the first three coefficients and the last four, a pose given by a rotation
    vector the first three and the last three: longer vectors are accepted and the coefficients in the middle ignored,
    and in shorter ones some coefficients serve twice; below the four, or the three, that are needed, undefined. *)
Theorem pose_quaternion_sizes (v : list R) :
  let c i := nth i v 0 in let n := length v in
  poseQuaternionToMatrixHomo v =
  if (n <? 4)%nat then UB else Ok (H (quatToMat (Q (c (n - 1)%nat) (c (n - 4)%nat) (c (n - 3)%nat) (c (n - 2)%nat))) (V3 (c 0%nat) (c 1%nat) (c 2%nat))).
Proof.
  cbv zeta. destruct (Nat.ltb_spec (length v) 4) as [L|L].
  - destruct v as [|a [|b [|c [|d v]]]]; try reflexivity. cbn in L. lia.
  - assert (G : forall i, (i + 2 < length v)%nat -> get3 v i = Ok (V3 (nth i v 0) (nth (i + 1) v 0) (nth (i + 2) v 0))).
    { intros i Hi. unfold get3, rget. rewrite !(vget_ok _ _ 0) by lia. reflexivity. }
    unfold poseQuaternionToMatrixHomo. rewrite G by lia. cbn [bind]. destruct (Nat.ltb_spec (length v) 4); [lia|]. rewrite G by lia. cbn [bind].
    unfold rget. rewrite (vget_ok _ _ 0) by lia. cbn [bind vx vy vz Nat.add]. replace (length v - 4 + 1)%nat with (length v - 3)%nat by lia.
    replace (length v - 4 + 2)%nat with (length v - 2)%nat by lia. reflexivity.
Qed.
Theorem pose_utheta_sizes (v : list R) :
  (poseUThetaToMatrixHomo v = UB <-> (length v < 3)%nat) /\
  forall t mid' u, length t = 3%nat -> length u = 3%nat -> poseUThetaToMatrixHomo (t ++ mid' ++ u) = poseUThetaToMatrixHomo (t ++ u).
Proof.
  split.
  - assert (G : forall i, (i + 2 < length v)%nat -> get3 v i = Ok (V3 (nth i v 0) (nth (i + 1) v 0) (nth (i + 2) v 0))).
    { intros i Hi. unfold get3, rget. rewrite !(vget_ok _ _ 0) by lia. reflexivity. }
    split.
    + intros E. destruct (Nat.lt_ge_cases (length v) 3) as [L|L]; [exact L|]. exfalso. revert E. unfold poseUThetaToMatrixHomo, tail3.
      rewrite G by lia. cbn [bind]. destruct (Nat.ltb_spec (length v) 3); [lia|]. rewrite G by lia. discriminate.
    + intros L. destruct v as [|a [|b [|c v]]]; try reflexivity. cbn in L. lia.
  - intros t m u Ht Hu. destruct t as [|a [|b [|c [|]]]]; try discriminate. destruct u as [|x [|y [|z [|]]]]; try discriminate.
    unfold poseUThetaToMatrixHomo, tail3. cbn [app]. unfold get3, rget, vget.
    assert (K : forall k, nth_error (a :: b :: c :: m ++ [x; y; z]) (length (a :: b :: c :: m ++ [x; y; z]) - 3 + k) = nth_error [x; y; z] k).
    { intros k. cbn [length]. rewrite app_length. cbn [length]. replace (S (S (S (length m + 3))) - 3 + k)%nat with (3 + (length m + k))%nat by lia.
      cbn [Nat.add nth_error]. rewrite nth_error_app2 by lia. now replace (length m + k - length m)%nat with k by lia. }
    specialize (K 0%nat) as K0. rewrite Nat.add_0_r in K0. rewrite K0, !K. cbn [length Nat.ltb Nat.leb nth_error Nat.add Nat.sub bind]. reflexivity.
Qed.
Print Assumptions pose_quaternion_sizes.
Print Assumptions pose_utheta_sizes.
