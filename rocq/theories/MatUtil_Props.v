(** C101: matrix utilities of the Python package. *)
From Coq Require Import String List Arith Lia ZArith Bool Reals Lra Psatz.
From Verif Require Import Base Geom_Model Geom_Facts Geom_Rot Geom_Props Robot_Model RobotBase_Model RobotBase_Props MatUtil_Model.
Import ListNotations.
Local Open Scope R_scope.

(** ** Roll, pitch, yaw.  The rotation of three angles is [rpy_rotation] (RobotBase_Props): about x,
    then about the fixed axes y and z. *)
Lemma rpy2tr_rotation r p y : rpy2tr r p y = Ok (H (rpy_rotation r p y) v0).
Proof.
  unfold rpy2tr, rotate, rpy_rotation, hmul, v0. cbn [bind String.eqb Ascii.eqb Bool.eqb lin trn]. gcbn. do 2 f_equal.
  unfold vadd, mapp. gcbn. f_equal; ring.
Qed.

Theorem py_to_matrix p0 p1 p2 r p y : RPYToMatrix [p0; p1; p2; r; p; y] = Ok (H (rpy_rotation r p y) (V3 p0 p1 p2)).
Proof. unfold RPYToMatrix. rewrite rpy2tr_rotation. reflexivity. Qed.

(** The Python function and the C++ entity PoseRollPitchYawToMatrixHomo build the same matrix. *)
Theorem py_cpp_same_matrix v : (6 <= length v)%nat -> RPYToMatrix v = poseRollPitchYawToMatrixHomo v.
Proof.
  intros L. do 6 (destruct v as [|? v]; [cbn in L; lia|]).
  unfold RPYToMatrix. rewrite rpy2tr_rotation. unfold poseRollPitchYawToMatrixHomo, get3. cbn [bind rget vget nth_error].
  unfold rget, vget. cbn [Nat.add nth_error bind lin]. rewrite rPYToMatrix_product. reflexivity.
Qed.

Lemma band_split m : is_rot m ->
  (Rabs (pitch m - PI / 2) < 1 / 1000 -> in_band m /\ 0 < pitch m) /\
  (Rabs (pitch m + PI / 2) < 1 / 1000 -> in_band m /\ pitch m < 0) /\
  (in_band m -> Rabs (pitch m - PI / 2) < 1 / 1000 \/ Rabs (pitch m + PI / 2) < 1 / 1000).
Proof.
  intros Hr. destruct (pitch_facts m Hr) as (_ & _ & _ & _ & PB). pose proof PI2_1. unfold in_band.
  set (p := pitch m) in *. clearbody p. split; [intros K; split|split; [intros K; split|intros K]].
  - assert (0 < p) by (apply Rabs_def2 in K; lra). rewrite (Rabs_right p) by lra. exact K.
  - apply Rabs_def2 in K. lra.
  - assert (p < 0) by (apply Rabs_def2 in K; lra). rewrite (Rabs_left p) by lra.
    replace (- p - PI / 2) with (- (p + PI / 2)) by ring. rewrite Rabs_Ropp. exact K.
  - apply Rabs_def2 in K. lra.
  - destruct (Rle_dec 0 p).
    + rewrite (Rabs_right p) in K by lra. left. exact K.
    + rewrite (Rabs_left p) in K by lra. right.
      replace (p + PI / 2) with (- (- p - PI / 2)) by ring. rewrite Rabs_Ropp. exact K.
Qed.

(** Outside the band the Python and the C++ conversions give the same six numbers. *)
Theorem py_cpp_same_angles m : is_rigid m -> ~ in_band (lin m) -> matrixToRPY m = base_se3_to_sot (trn m) (lin m).
Proof.
  intros Hr NB. unfold matrixToRPY, tr2rpy, base_se3_to_sot. fold (pitch (lin m)).
  destruct (band_split _ Hr) as (B1 & B2 & _).
  destruct (Rlt_dec (Rabs (pitch (lin m) - PI / 2)) (1 / 1000)) as [K|_]; [now apply B1 in K|].
  destruct (Rlt_dec (Rabs (pitch (lin m) + PI / 2)) (1 / 1000)) as [K|_]; [now apply B2 in K|].
  destruct (Rlt_dec (Rabs (Rabs (pitch (lin m)) - PI / 2)) (1 / 1000)) as [K|_]; [contradiction|]. reflexivity.
Qed.

(** Matrix -> vector -> matrix: exact outside the band and at the vertical. *)
Theorem py_rpy_roundtrip m : is_rigid m -> ~ in_band (lin m) \/ vertical (lin m) -> RPYToMatrix (matrixToRPY m) = Ok m.
Proof.
  intros Hr HB. destruct (Rlt_dec (Rabs (Rabs (pitch (lin m)) - PI / 2)) (1 / 1000)) as [B|NB].
  - assert (Hv : vertical (lin m)) by (destruct HB; [contradiction|assumption]). clear HB.
    unfold is_rigid in Hr. destruct (band_split _ Hr) as (B1 & B2 & B3). specialize (B3 B).
    destruct (pitch_facts _ Hr) as (C0 & CP & SP & CC & PB).
    apply (vertical_iff _ Hr) in Hv as Hc. rewrite Hc in *. destruct Hv as [H1 H2].
    destruct (rot_cof _ Hr) as (Q0&Q1&Q2&Q3&Q4&Q5&Q6&Q7&Q8).
    destruct (rot_rows _ Hr) as (R0&R1&R2&R3&R4&R5).
    destruct (rot_cols _ Hr) as (L0&L1&L2&L3&L4&L5).
    unfold matrixToRPY, tr2rpy. fold (pitch (lin m)). set (p := pitch (lin m)) in *.
    assert (SS : 0 < p -> - m20 (lin m) = 1).
    { intros Hp. assert (0 <= sin p) by (apply sin_ge_0; pose proof PI_RGT_0; lra).
      assert (m20 (lin m) * m20 (lin m) = 1) by (rewrite H1, H2 in *; lra). nra. }
    assert (SN : p < 0 -> - m20 (lin m) = -1).
    { intros Hp. assert (0 <= sin (- p)) by (apply sin_ge_0; pose proof PI_RGT_0; lra). rewrite sin_neg in *.
      assert (m20 (lin m) * m20 (lin m) = 1) by (rewrite H1, H2 in *; lra). nra. }
    destruct (atan2_unit (m01 (lin m)) (m11 (lin m))) as [A0 A1]; [rewrite H1 in *; lra|].
    destruct m as [[a b d' d e f g h i] t]. gcbn. cbn [lin trn] in *. gcbn. rewrite H1, H2 in *.
    assert (AD : a * a + d * d = 0) by nra.
    assert (a = 0) by (apply Rsqr_0_uniq; unfold Rsqr; nra). assert (d = 0) by (apply Rsqr_0_uniq; unfold Rsqr; nra).
    subst a d.
    destruct (Rlt_dec (Rabs (p - PI / 2)) (1 / 1000)) as [K|K]; [|destruct (Rlt_dec (Rabs (p + PI / 2)) (1 / 1000)) as [K'|K']].
    + rewrite py_to_matrix. do 2 f_equal; [|now destruct t].
      apply B1 in K as [_ K]. apply SS in K. unfold rpy_rotation, mmul, axisMat. gcbn. rewrite A0, A1, cos_0, sin_0, CP, SP, K.
      f_equal; try lra; nra.
    + rewrite py_to_matrix. do 2 f_equal; [|now destruct t].
      apply B2 in K' as [_ K']. apply SN in K'. unfold rpy_rotation, mmul, axisMat. gcbn. rewrite cos_neg, sin_neg, A0, A1, cos_0, sin_0, CP, SP, K'.
      f_equal; try lra; nra.
    + exfalso. destruct B3; contradiction.
  - rewrite py_cpp_same_angles by assumption. destruct (base_rotation_exact (trn m) _ Hr HB) as (r & p & y & -> & E).
    rewrite py_to_matrix, E. destruct m as [l [? ? ?]]. reflexivity.
Qed.

(** Inside the band the position is exact and every coefficient of the rotation is reproduced up to 0.002. *)
Theorem py_rpy_band m : is_rigid m -> in_band (lin m) ->
  exists m', RPYToMatrix (matrixToRPY m) = Ok m' /\ trn m' = trn m /\ close (2 / 1000) (lin m') (lin m).
Proof.
  intros Hr B. unfold is_rigid in Hr. destruct (band_split _ Hr) as (B1 & B2 & B3).
  destruct (pitch_facts _ Hr) as (C0 & CP & SP & CC & PB). pose proof (cos_near _ PB B) as CN. rewrite CP in CN.
  destruct (rot_cof _ Hr) as (Q0&Q1&Q2&Q3&Q4&Q5&Q6&Q7&Q8).
  destruct (rot_rows _ Hr) as (R0&R1&R2&R3&R4&R5).
  destruct (rot_cols _ Hr) as (L0&L1&L2&L3&L4&L5).
  unfold matrixToRPY, tr2rpy. fold (pitch (lin m)). set (p := pitch (lin m)) in *.
  assert (SS : 0 < p -> 0 <= - m20 (lin m)).
  { intros Hp. rewrite <- SP. apply sin_ge_0; pose proof PI_RGT_0; lra. }
  assert (SN : p < 0 -> - m20 (lin m) <= 0).
  { intros Hp. rewrite <- SP. assert (0 <= sin (- p)) by (apply sin_ge_0; pose proof PI_RGT_0; lra). rewrite sin_neg in *. lra. }
  destruct (atan2_spec (m01 (lin m)) (m11 (lin m))) as [A0 A1]. pose proof (sin2_cos2 (atan2 (m01 (lin m)) (m11 (lin m)))) as SC.
  unfold Rsqr in SC.
  destruct m as [[a b d' d e f g h i] t]. cbn [lin trn] in *. gcbn.
  set (c := sqrt (h * h + i * i)) in *. clearbody c.
  set (n := sqrt (e * e + b * b)) in *.
  assert (N0 : 0 <= n) by apply sqrt_pos.
  assert (NN : n * n = 1 - h * h) by (unfold n; rewrite sqrt_sqrt; pose proof (Rle_0_sqr e) as S1; pose proof (Rle_0_sqr b) as S2; unfold Rsqr in S1, S2; lra). clearbody n.
  set (cy := cos (atan2 b e)) in *. set (sy := sin (atan2 b e)) in *.
  pose proof (Rle_0_sqr a) as Sa. pose proof (Rle_0_sqr d) as Sd. pose proof (Rle_0_sqr g) as Sg.
  pose proof (Rle_0_sqr h) as Sh. pose proof (Rle_0_sqr i) as Si. pose proof (Rle_0_sqr cy) as Scy.
  pose proof (Rle_0_sqr sy) as Ssy. unfold Rsqr in Sa, Sd, Sg, Sh, Si, Scy, Ssy.
  assert (Hh : - c <= h <= c) by (apply square_bound; lra). assert (Hi : - c <= i <= c) by (apply square_bound; lra).
  assert (Ha : - c <= a <= c) by (apply square_bound; lra). assert (Hd : - c <= d <= c) by (apply square_bound; lra).
  assert (Hcy : -1 <= cy <= 1) by (apply square_bound; lra). assert (Hsy : -1 <= sy <= 1) by (apply square_bound; lra).
  assert (Hg : -1 <= g <= 1) by (apply square_bound; lra).
  assert (N1 : 0 <= 1 - n <= c * c) by (apply one_minus_root with (h * h); lra).
  assert (c2 : c * c <= 1 / 1000000) by (apply small_square; lra).
  assert (De : - (c * c) <= cy - e <= c * c).
  { rewrite <- A0. replace (cy - n * cy) with ((1 - n) * cy) by ring. rewrite <- (Rmult_1_r (c * c)).
    apply mul_bound; [|lra..]. lra. }
  assert (Db : - (c * c) <= sy - b <= c * c).
  { rewrite <- A1. replace (sy - n * sy) with ((1 - n) * sy) by ring. rewrite <- (Rmult_1_r (c * c)).
    apply mul_bound; [|lra..]. lra. }
  assert (Dh : - (c * c) <= d * h <= c * c) by (apply mul_bound; lra).
  assert (Ah : - (c * c) <= a * h <= c * c) by (apply mul_bound; lra).
  assert (ccy : - c <= c * cy <= c) by (pose proof (mul_bound c cy c 1 ltac:(lra) ltac:(lra) C0); lra).
  assert (csy : - c <= c * sy <= c) by (pose proof (mul_bound c sy c 1 ltac:(lra) ltac:(lra) C0); lra).
  assert (ib : - (c * c) <= i * a <= c * c) by (apply mul_bound; lra).
  (* the first coefficient of the third row is close to 1 or to -1 *)
  assert (gg : g * g = 1 - c * c) by lra.
  destruct (Rlt_dec (Rabs (p - PI / 2)) (1 / 1000)) as [K|K]; [|destruct (Rlt_dec (Rabs (p + PI / 2)) (1 / 1000)) as [K'|K']].
  - apply B1 in K as [_ K]. apply SS in K.
    assert (G1 : 0 <= 1 - (- g) <= c * c) by (apply one_minus_root with (c * c); [lra| |lra]; lra).
    eexists. rewrite py_to_matrix. split; [reflexivity|]. split; [now destruct t|]. cbn [lin].
    unfold close, rpy_rotation, mmul, axisMat. gcbn. rewrite cos_0, sin_0, CP, SP. fold cy sy. clearbody cy sy p.
    assert (gsy : - (c * c) <= (1 - - g) * sy <= c * c) by (rewrite <- (Rmult_1_r (c * c)); apply mul_bound; lra).
    assert (gcy : - (c * c) <= (1 - - g) * cy <= c * c) by (rewrite <- (Rmult_1_r (c * c)); apply mul_bound; lra).
    assert (ge : - (c * c) <= (1 - - g) * e <= c * c).
    { rewrite <- (Rmult_1_r (c * c)); apply mul_bound; [lra| |lra]. apply square_bound; [lra|]. pose proof (Rle_0_sqr b) as X. unfold Rsqr in X. lra. }
    assert (gb : - (c * c) <= (1 - - g) * b <= c * c).
    { rewrite <- (Rmult_1_r (c * c)); apply mul_bound; [lra| |lra]. apply square_bound; [lra|]. pose proof (Rle_0_sqr e) as X. unfold Rsqr in X. lra. }
    repeat split; apply Rabs_def1; try lra.
  - apply B2 in K' as [_ K']. apply SN in K'.
    assert (G1 : 0 <= 1 - g <= c * c) by (apply one_minus_root with (c * c); [lra| |lra]; lra).
    eexists. rewrite py_to_matrix. split; [reflexivity|]. split; [now destruct t|]. cbn [lin].
    unfold close, rpy_rotation, mmul, axisMat. gcbn. rewrite cos_neg, sin_neg, cos_0, sin_0, CP, SP. fold cy sy. clearbody cy sy p.
    assert (gsy : - (c * c) <= (1 - g) * sy <= c * c) by (rewrite <- (Rmult_1_r (c * c)); apply mul_bound; lra).
    assert (gcy : - (c * c) <= (1 - g) * cy <= c * c) by (rewrite <- (Rmult_1_r (c * c)); apply mul_bound; lra).
    assert (ge : - (c * c) <= (1 - g) * e <= c * c).
    { rewrite <- (Rmult_1_r (c * c)); apply mul_bound; [lra| |lra]. apply square_bound; [lra|]. pose proof (Rle_0_sqr b) as X. unfold Rsqr in X. lra. }
    assert (gb : - (c * c) <= (1 - g) * b <= c * c).
    { rewrite <- (Rmult_1_r (c * c)); apply mul_bound; [lra| |lra]. apply square_bound; [lra|]. pose proof (Rle_0_sqr e) as X. unfold Rsqr in X. lra. }
    repeat split; apply Rabs_def1; try lra.
  - exfalso. destruct (B3 B); contradiction.
Qed.

(** Vector -> matrix -> vector: the same six numbers, for angles in the usual ranges. *)
Theorem py_angles_roundtrip p0 p1 p2 r p y :
  - PI < r <= PI -> - PI < y <= PI -> Rabs p <= PI / 2 - 1 / 1000 ->
  (let* m := RPYToMatrix [p0; p1; p2; r; p; y] in Ok (matrixToRPY m)) = Ok [p0; p1; p2; r; p; y].
Proof.
  intros Hr Hy Hp. rewrite py_to_matrix. cbn [bind]. f_equal. pose proof PI2_1.
  assert (Rt : is_rot (rpy_rotation r p y)) by (unfold rpy_rotation; apply rot_mul; [apply rot_mul|]; apply axisMat_rot).
  destruct (base_to_quaternion p0 p1 p2 r p y) as (x' & y' & z' & w' & E & _ & M).
  pose proof (base_sot_roundtrip p0 p1 p2 r p y Hr Hy Hp) as X. rewrite E in X. cbn [bind base_urdf_to_sot] in X. rewrite M in X.
  rewrite py_cpp_same_angles.
  - cbn [trn lin]. injection X as X. exact X.
  - exact Rt.
  - cbn [lin]. intros B. assert (Ep : pitch (rpy_rotation r p y) = p).
    { unfold base_se3_to_sot in X. fold (pitch (rpy_rotation r p y)) in X.
      destruct (Rlt_dec (Rabs (Rabs (pitch (rpy_rotation r p y)) - PI / 2)) (1 / 1000)); now injection X. }
    unfold in_band in B. rewrite Ep in B. assert (Rabs p < PI / 2) by lra. rewrite Rabs_left1 in B by lra. lra.
Qed.

(** The pair rpy2tr, tr2rpy is not a round trip: tr2rpy returns the yaw first. *)
Theorem tr2rpy_order_refuted : exists r p y m, rpy2tr r p y = Ok m /\ - PI < r <= PI /\ - PI < y <= PI /\ Rabs p <= PI / 2 - 1 / 1000 /\
  tr2rpy (lin m) = (y, p, r) /\
  (let '(a, b, c) := tr2rpy (lin m) in rpy2tr a b c) <> Ok m.
Proof.
  pose proof PI2_1 as HPI. exists 1, 0, 0, (H (rpy_rotation 1 0 0) v0). split; [apply rpy2tr_rotation|].
  split; [lra|]. split; [lra|]. split; [rewrite Rabs_R0; lra|].
  assert (E : tr2rpy (rpy_rotation 1 0 0) = (0, 0, 1)).
  { pose proof (py_angles_roundtrip 0 0 0 1 0 0 ltac:(lra) ltac:(lra) ltac:(rewrite Rabs_R0; lra)) as X.
    rewrite py_to_matrix in X. cbn [bind] in X. unfold matrixToRPY in X. cbn [lin trn] in X.
    destruct (tr2rpy (rpy_rotation 1 0 0)) as [[a b] c]. injection X as -> -> ->. reflexivity. }
  cbn [lin]. rewrite E. split; [reflexivity|]. rewrite rpy2tr_rotation. intros K.
  apply (f_equal (fun o => match o with Ok h => m10 (lin h) | _ => 0 end)) in K.
  unfold rpy_rotation, mmul, axisMat in K. cbn [lin] in K. gcbn. rewrite ?sin_0, ?cos_0 in *.
  assert (0 < sin 1) by (apply sin_gt_0; lra). lra.
Qed.

(** ** Positions *)
Theorem dist_vector a b c :
  vadd (trn a) (distVector a b) = trn b /\ distVector a a = v0 /\
  distVector b a = vopp (distVector a b) /\ vadd (distVector a b) (distVector b c) = distVector a c.
Proof.
  destruct a as [? [? ? ?]], b as [? [? ? ?]], c as [? [? ? ?]]. unfold distVector, vadd, vopp, v0. cbn [trn]. gcbn.
  repeat split; f_equal; ring.
Qed.

(** ** Quaternions, given as x, y, z, w *)
Theorem py_quaternion x y z w :
  quaternionToMatrix [x; y; z; w] = Ok (quatToMat (Q w x y z)) /\
  (x * x + y * y + z * z + w * w = 1 -> is_rot (quatToMat (Q w x y z))).
Proof.
  split.
  - unfold quaternionToMatrix, quatToMat. gcbn. f_equal. f_equal; ring.
  - intros U. apply quatToMat_rot. unfold unit_quat. gcbn. lra.
Qed.

(** ** Orthonormal basis *)
Definition column (m : mat3) (j : nat) : vec3 :=
  match j with
  | O => V3 (m00 m) (m10 m) (m20 m)
  | 1%nat => V3 (m01 m) (m11 m) (m21 m)
  | _ => V3 (m02 m) (m12 m) (m22 m)
  end.
Definition triple (a b c : vec3) : R := vdot a (cross b c).

Lemma vdot_pos v : 0 <= vdot v v.
Proof. unfold vdot. nra. Qed.
Lemma vnorm_sq v : vnorm v * vnorm v = vdot v v.
Proof. apply sqrt_sqrt, vdot_pos. Qed.
Lemma vnorm_pos v : 0 <= vnorm v.
Proof. apply sqrt_pos. Qed.

Lemma normalized_some v e : normalized v = Some e -> 0 < vnorm v /\ v = vscal (vnorm v) e /\ vdot e e = 1.
Proof.
  unfold normalized. destruct (Req_EM_T (vnorm v) 0) as [|N]; [discriminate|]. intros E. injection E as <-.
  pose proof (vnorm_pos v) as P. pose proof (vnorm_sq v) as S. set (k := vnorm v) in *. clearbody k.
  assert (0 < k) by lra. split; [assumption|]. destruct v as [a b c]. unfold vscal, vdot in *. gcbn. split.
  - f_equal; field; lra.
  - apply (Rmult_eq_reg_l (k * k)); [|nra]. rewrite Rmult_1_r. transitivity (a * a + b * b + c * c); [field; lra|lra].
Qed.

Lemma normalized_none v : normalized v = None -> v = v0.
Proof.
  unfold normalized. destruct (Req_EM_T (vnorm v) 0) as [E|]; [|discriminate]. intros _.
  pose proof (vnorm_sq v) as S. rewrite E in S. destruct v as [a b c]. unfold vdot, v0 in *. gcbn.
  assert (a = 0) by nra. assert (b = 0) by nra. assert (c = 0) by nra. now subst.
Qed.

Lemma gram_triple k1 k2 k3 e1 e2 e3 a b c :
  triple (vscal k1 e1) (vadd (vscal a e1) (vscal k2 e2)) (vadd (vadd (vscal b e1) (vscal c e2)) (vscal k3 e3)) =
  k1 * k2 * k3 * triple e1 e2 e3.
Proof. destruct e1, e2, e3. unfold triple, vdot, cross, vadd, vscal. gcbn. ring. Qed.

(** The matrix returned is orthonormal, its first column is the direction of the vector, the second
    is in the half plane of the first two vectors on the side of the second, and its determinant
    has the sign of the determinant of the vector and the two drawn ones. *)
Theorem orthonormal_basis v1 v2 v3 m : generateOrthonormalM v2 v3 v1 = Some m ->
  mmul (mT m) m = mid /\ v1 = vscal (vnorm v1) (column m 0) /\ 0 < vnorm v1 /\
  (exists a b, v2 = vadd (vscal a (column m 0)) (vscal b (column m 1)) /\ 0 < b) /\
  (exists k, 0 < k /\ triple v1 v2 v3 = k * mdet m) /\ (mdet m = 1 \/ mdet m = -1).
Proof.
  unfold generateOrthonormalM. destruct (normalized v1) as [e1|] eqn:E1; [|discriminate].
  destruct (normalized (vsub v2 _)) as [e2|] eqn:E2; [|discriminate].
  destruct (normalized (vsub (vsub v3 _) _)) as [e3|] eqn:E3; [|discriminate].
  intros E. injection E as <-.
  apply normalized_some in E1 as (P1 & D1 & U1), E2 as (P2 & D2 & U2), E3 as (P3 & D3 & U3).
  set (k1 := vnorm v1) in *. set (k2 := vnorm (vsub v2 _)) in *. set (k3 := vnorm (vsub (vsub v3 _) _)) in *.
  clearbody k1 k2 k3.
  assert (O12 : vdot e1 e2 = 0).
  { apply (Rmult_eq_reg_l k2); [|lra]. transitivity (vdot e1 (vscal k2 e2)); [destruct e1, e2; unfold vdot, vscal; gcbn; ring|].
    rewrite <- D2. transitivity (vdot v2 e1 * (1 - vdot e1 e1)); [|rewrite U1; ring].
    destruct e1, v2; unfold vdot, vsub, vscal; gcbn; ring. }
  assert (O13 : vdot e1 e3 = 0).
  { apply (Rmult_eq_reg_l k3); [|lra]. transitivity (vdot e1 (vscal k3 e3)); [destruct e1, e3; unfold vdot, vscal; gcbn; ring|].
    rewrite <- D3. transitivity (vdot v3 e1 * (1 - vdot e1 e1) - vdot v3 e2 * vdot e1 e2); [|rewrite U1, O12; ring].
    destruct e1, e2, v3; unfold vdot, vsub, vscal; gcbn; ring. }
  assert (O23 : vdot e2 e3 = 0).
  { apply (Rmult_eq_reg_l k3); [|lra]. transitivity (vdot e2 (vscal k3 e3)); [destruct e2, e3; unfold vdot, vscal; gcbn; ring|].
    rewrite <- D3. transitivity (vdot v3 e2 * (1 - vdot e2 e2) - vdot v3 e1 * vdot e1 e2); [|rewrite U2, O12; ring].
    destruct e1, e2, v3; unfold vdot, vsub, vscal; gcbn; ring. }
  assert (V2 : v2 = vadd (vscal (vdot v2 e1) e1) (vscal k2 e2)).
  { rewrite <- D2. destruct e1, v2; unfold vadd, vsub, vscal, vdot; gcbn. f_equal; ring. }
  assert (V3' : v3 = vadd (vadd (vscal (vdot v3 e1) e1) (vscal (vdot v3 e2) e2)) (vscal k3 e3)).
  { rewrite <- D3. destruct e1, e2, v3; unfold vadd, vsub, vscal, vdot; gcbn. f_equal; ring. }
  set (m := M3 _ _ _ _ _ _ _ _ _).
  assert (G : mmul (mT m) m = mid).
  { unfold m. clear - U1 U2 U3 O12 O13 O23. destruct e1, e2, e3. unfold mmul, mT, mid, vdot in *. gcbn. f_equal; lra. }
  assert (T : triple e1 e2 e3 = mdet m).
  { unfold m. destruct e1, e2, e3. unfold triple, vdot, cross, mdet. gcbn. ring. }
  split; [exact G|]. split; [unfold m; cbn [column m00 m10 m20]; destruct e1; exact D1|]. split; [exact P1|].
  split; [exists (vdot v2 e1), k2; split; [|exact P2]; unfold m; cbn [column m00 m10 m20 m01 m11 m21]; destruct e1, e2; exact V2|].
  split.
  - exists (k1 * k2 * k3). split; [repeat apply Rmult_lt_0_compat; assumption|].
    rewrite <- T, <- (gram_triple k1 k2 k3 e1 e2 e3 (vdot v2 e1) (vdot v3 e1) (vdot v3 e2)), <- D1, <- V2, <- V3'. reflexivity.
  - assert (DD : mdet m * mdet m = 1).
    { rewrite <- (mdet_mT m) at 1. rewrite <- mdet_mul, G. unfold mdet, mid. gcbn. ring. }
    destruct (Rle_dec 0 (mdet m)); [left|right]; nra.
Qed.

(** It is defined exactly when the three vectors are independent. *)
Theorem orthonormal_defined v1 v2 v3 : (exists m, generateOrthonormalM v2 v3 v1 = Some m) <-> triple v1 v2 v3 <> 0.
Proof.
  split.
  - intros [m E]. destruct (orthonormal_basis _ _ _ _ E) as (_ & _ & _ & _ & (k & K & ->) & [-> | ->]); lra.
  - intros N. unfold generateOrthonormalM. destruct (normalized v1) as [e1|] eqn:E1.
    2:{ exfalso. apply normalized_none in E1 as ->. apply N. destruct v2, v3. unfold triple, vdot, cross, v0. gcbn. ring. }
    destruct (normalized (vsub v2 _)) as [e2|] eqn:E2.
    2:{ exfalso. apply normalized_none in E2. apply normalized_some in E1 as (_ & D1 & _). apply N.
        assert (V2 : v2 = vscal (vdot v2 e1) e1).
        { revert E2. generalize (vdot v2 e1). intros s E2. destruct e1 as [x y z], v2 as [x' y' z']. unfold vscal, vsub, v0 in *. gcbn.
          injection E2 as A B C. f_equal; lra. }
        rewrite D1, V2. generalize (vdot v2 e1) (vnorm v1). intros s k. destruct e1, v3. unfold triple, vdot, cross, vscal. gcbn. ring. }
    destruct (normalized (vsub (vsub v3 _) _)) as [e3|] eqn:E3; [eauto|].
    exfalso. apply normalized_none in E3. apply normalized_some in E1 as (_ & D1 & _). apply normalized_some in E2 as (_ & D2 & _).
    apply N. set (k := vnorm (vsub v2 _)) in D2. clearbody k. revert D2 E3. generalize (vdot v2 e1) (vdot v3 e1) (vdot v3 e2).
    intros s t w D2 E3. rewrite D1. generalize (vnorm v1). intros k1.
    assert (V2 : v2 = vadd (vscal s e1) (vscal k e2)) by (rewrite <- D2; destruct e1, v2; unfold vadd, vsub, vscal; gcbn; f_equal; ring).
    assert (V3' : v3 = vadd (vscal t e1) (vscal w e2)).
    { destruct e1 as [x y z], e2 as [p q r], v3 as [x' y' z']. unfold vscal, vsub, vadd, v0 in *. gcbn.
      injection E3 as A B C. f_equal; lra. }
    rewrite V2, V3'. destruct e1, e2. unfold triple, vdot, cross, vadd, vscal. gcbn. ring.
Qed.

(** The comment of the function promises a matrix of SO(3): half of the draws give a reflection. *)
Theorem orthonormal_so3_refuted : exists v1 v2 v3 m,
  (0 <= vx v2 < 1 /\ 0 <= vy v2 < 1 /\ 0 <= vz v2 < 1) /\ (0 <= vx v3 < 1 /\ 0 <= vy v3 < 1 /\ 0 <= vz v3 < 1) /\
  generateOrthonormalM v2 v3 v1 = Some m /\ mdet m = -1.
Proof.
  set (v1 := V3 1 0 0). set (v2 := V3 0 0 (1/2)). set (v3 := V3 0 (1/2) 0).
  assert (T : triple v1 v2 v3 = - (1 / 4)) by (unfold triple, vdot, cross, v1, v2, v3; gcbn; lra).
  destruct (proj2 (orthonormal_defined v1 v2 v3)) as [m E]; [rewrite T; lra|].
  exists v1, v2, v3, m. split; [unfold v2; gcbn; lra|]. split; [unfold v3; gcbn; lra|]. split; [exact E|].
  destruct (orthonormal_basis _ _ _ _ E) as (_ & _ & _ & _ & (k & K & F) & [D|D]); [|exact D]. rewrite T, D in F. lra.
Qed.

(** Two draws that differ only by the order of the drawn vectors give determinants of opposite
    signs, so no given vector can be sure to get a rotation. *)
Theorem orthonormal_swap v1 v2 v3 m m' : generateOrthonormalM v2 v3 v1 = Some m -> generateOrthonormalM v3 v2 v1 = Some m' ->
  mdet m' = - mdet m.
Proof.
  intros E E'. destruct (orthonormal_basis _ _ _ _ E) as (_ & _ & _ & _ & (k & K & F) & D).
  destruct (orthonormal_basis _ _ _ _ E') as (_ & _ & _ & _ & (k' & K' & F') & D').
  assert (S : triple v1 v3 v2 = - triple v1 v2 v3) by (destruct v1, v2, v3; unfold triple, vdot, cross; gcbn; ring).
  rewrite F, F' in S. destruct D as [D|D], D' as [D'|D']; rewrite D, D' in *; nra.
Qed.

(** ** Tuples *)
Theorem matrix_to_tuple rows : matrixToTuple rows = rows.
Proof.
  unfold matrixToTuple. assert (G : forall l acc, fold_left (fun (res : list (list R)) (i : list R) => res ++ [i]) l acc = (acc ++ l)%list).
  { induction l as [|x l IH]; intros acc; cbn [fold_left]; [now rewrite app_nil_r|]. rewrite IH, <- app_assoc. reflexivity. }
  apply G.
Qed.

(** A vector, a row and a column all give the list of their coefficients. *)
Theorem vector_to_tuple v :
  vectorToTuple (Arr1 v) = Ok v /\ vectorToTuple (Arr2 (length v) [v]) = Ok v /\
  vectorToTuple (Arr2 1 (map (fun x => [x]) v)) = Ok v.
Proof.
  split; [reflexivity|]. split; [reflexivity|]. unfold vectorToTuple. rewrite map_length.
  assert (G : forall l acc, ofold (fun c r => let* x := vget r 0 in Ok (c ++ [x])) (map (fun x : R => [x]) l) acc = Ok (acc ++ l)%list).
  { induction l as [|x l IH]; intros acc; [cbn; now rewrite app_nil_r|].
    replace (acc ++ x :: l)%list with ((acc ++ [x]) ++ l)%list by (rewrite <- app_assoc; reflexivity). exact (IH (acc ++ [x])%list). }
  destruct v as [|x [|y v]]; [reflexivity..|]. cbn [length Nat.eqb]. unfold transpose, ofor_range. cbn [Nat.sub seq ofold].
  rewrite G. reflexivity.
Qed.

(** A matrix with several rows is silently cut to its first column. *)
Theorem vector_to_tuple_cut_refuted : exists nc rows v, length rows = 2%nat /\ Forall (fun r => length r = nc) rows /\
  vectorToTuple (Arr2 nc rows) = Ok v /\ (length v < length (List.concat rows))%nat.
Proof.
  exists 2%nat, [[1; 2]; [3; 4]], [1; 3]. repeat split; [repeat constructor|]. cbn. lia.
Qed.

(** A matrix without column raises, unless it has one row. *)
Theorem vector_to_tuple_no_column rows :
  vectorToTuple (Arr2 0 rows) =
  if (length rows =? 1)%nat then vget rows 0 else Throw "IndexError: list index out of range".
Proof. reflexivity. Qed.

(** ** Examples *)
Example py_rpy_example : exists m, is_rigid m /\ ~ in_band (lin m) /\ matrixToRPY m = [1; 2; 3; 1; 1 / 2; -1] /\ RPYToMatrix [1; 2; 3; 1; 1 / 2; -1] = Ok m.
Proof.
  pose proof PI2_1 as HPI. exists (H (rpy_rotation 1 (1/2) (-1)) (V3 1 2 3)).
  pose proof (py_angles_roundtrip 1 2 3 1 (1/2) (-1) ltac:(lra) ltac:(lra) ltac:(rewrite Rabs_right; lra)) as X.
  rewrite py_to_matrix in X. cbn [bind] in X. injection X as X.
  assert (Rt : is_rot (rpy_rotation 1 (1/2) (-1))) by (unfold rpy_rotation; apply rot_mul; [apply rot_mul|]; apply axisMat_rot).
  split; [exact Rt|]. assert (Ep : pitch (rpy_rotation 1 (1/2) (-1)) = 1/2).
  { unfold matrixToRPY, tr2rpy in X. cbn [lin trn] in X. fold (pitch (rpy_rotation 1 (1/2) (-1))) in X.
    set (q := pitch _) in *. destruct (Rlt_dec _ _); [now injection X|]. destruct (Rlt_dec _ _); now injection X. }
  split; [cbn [lin]; unfold in_band; rewrite Ep, (Rabs_right (1/2)), Rabs_left by lra; lra|].
  split; [|apply py_to_matrix]. unfold matrixToRPY, tr2rpy in *. exact X.
Qed.

Print Assumptions py_to_matrix.
Print Assumptions py_cpp_same_matrix.
Print Assumptions py_cpp_same_angles.
Print Assumptions py_rpy_roundtrip.
Print Assumptions py_rpy_band.
Print Assumptions py_angles_roundtrip.
Print Assumptions tr2rpy_order_refuted.
Print Assumptions dist_vector.
Print Assumptions py_quaternion.
Print Assumptions orthonormal_basis.
Print Assumptions orthonormal_defined.
Print Assumptions orthonormal_so3_refuted.
Print Assumptions orthonormal_swap.
Print Assumptions matrix_to_tuple.
Print Assumptions vector_to_tuple.
Print Assumptions vector_to_tuple_cut_refuted.
Print Assumptions vector_to_tuple_no_column.
