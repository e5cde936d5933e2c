(** C52: operational point modification. *)
From Coq Require Import String List Arith Lia ZArith Bool Reals Lra.
From Verif Require Import Base Geom_Model Geom_Facts Geom_Rot Geom_Props OpPoint_Model.
Import ListNotations.
Local Open Scope R_scope.

(** ** Specification
    A moving frame is a pair of a rotation R(t) and an origin p(t); its
    velocity in the world is (dp/dt, w) with dR/dt = [w]x R. *)
Definition vderiv (f : R -> vec3) (t : R) (d : vec3) : Prop :=
  derivable_pt_lim (fun s => vx (f s)) t (vx d) /\
  derivable_pt_lim (fun s => vy (f s)) t (vy d) /\
  derivable_pt_lim (fun s => vz (f s)) t (vz d).

Definition mderiv (f : R -> mat3) (t : R) (d : mat3) : Prop :=
  derivable_pt_lim (fun s => m00 (f s)) t (m00 d) /\
  derivable_pt_lim (fun s => m01 (f s)) t (m01 d) /\
  derivable_pt_lim (fun s => m02 (f s)) t (m02 d) /\
  derivable_pt_lim (fun s => m10 (f s)) t (m10 d) /\
  derivable_pt_lim (fun s => m11 (f s)) t (m11 d) /\
  derivable_pt_lim (fun s => m12 (f s)) t (m12 d) /\
  derivable_pt_lim (fun s => m20 (f s)) t (m20 d) /\
  derivable_pt_lim (fun s => m21 (f s)) t (m21 d) /\
  derivable_pt_lim (fun s => m22 (f s)) t (m22 d).

(** The frame [M] moves at time [t] with velocity [n] expressed in the world
    (velocity of its origin, angular velocity). *)
Definition world_velocity (M : R -> hom) (t : R) (n : vec3 * vec3) : Prop :=
  vderiv (fun s => trn (M s)) t (fst n) /\
  mderiv (fun s => lin (M s)) t (mmul (skew (snd n)) (lin (M t))).

(** The same expressed in the moving frame itself. *)
Definition body_velocity (M : R -> hom) (t : R) (n : vec3 * vec3) : Prop :=
  vderiv (fun s => trn (M s)) t (mapp (lin (M t)) (fst n)) /\
  mderiv (fun s => lin (M s)) t (mmul (lin (M t)) (skew (snd n))).

(* ---------------------------------------------------------------- *)
Lemma dlin3 f g h t df dg dh a b c k :
  derivable_pt_lim f t df -> derivable_pt_lim g t dg ->
  derivable_pt_lim h t dh ->
  derivable_pt_lim (fun s => f s * a + g s * b + h s * c + k) t
    (df * a + dg * b + dh * c).
Proof.
  intros F G K.
  assert (Z : forall (u : R -> R) du x, derivable_pt_lim u t du ->
              derivable_pt_lim (fun s => u s * x) t (du * x)).
  { intros u du x Hu.
    replace (du * x) with (du * x + u t * 0) by ring.
    apply (derivable_pt_lim_mult u (fct_cte x)); [exact Hu|].
    apply derivable_pt_lim_const. }
  replace (df * a + dg * b + dh * c) with (df * a + dg * b + dh * c + 0) by ring.
  apply (derivable_pt_lim_plus (fun s => f s * a + g s * b + h s * c) (fct_cte k)).
  - apply (derivable_pt_lim_plus (fun s => f s * a + g s * b) (fun s => h s * c)).
    + apply (derivable_pt_lim_plus (fun s => f s * a) (fun s => g s * b));
        apply Z; assumption.
    + apply Z, K.
  - apply derivable_pt_lim_const.
Qed.

Lemma mderiv_mapp f t d v : mderiv f t d ->
  vderiv (fun s => mapp (f s) v) t (mapp d v).
Proof.
  intros (A & B & C & D & E & F & G & I & J).
  unfold vderiv, mapp. cbn [vx vy vz].
  repeat split.
  - eapply derivable_pt_lim_ext;
      [|apply (dlin3 _ _ _ t _ _ _ (vx v) (vy v) (vz v) 0 A B C)];
      intros; cbn beta; ring.
  - eapply derivable_pt_lim_ext;
      [|apply (dlin3 _ _ _ t _ _ _ (vx v) (vy v) (vz v) 0 D E F)];
      intros; cbn beta; ring.
  - eapply derivable_pt_lim_ext;
      [|apply (dlin3 _ _ _ t _ _ _ (vx v) (vy v) (vz v) 0 G I J)];
      intros; cbn beta; ring.
Qed.

Lemma vderiv_add f g t df dg : vderiv f t df -> vderiv g t dg ->
  vderiv (fun s => vadd (f s) (g s)) t (vadd df dg).
Proof.
  intros (A & B & C) (D & E & F). unfold vderiv, vadd. cbn [vx vy vz].
  repeat split; apply derivable_pt_lim_plus; assumption.
Qed.

Lemma mderiv_mmul_r f t d m : mderiv f t d ->
  mderiv (fun s => mmul (f s) m) t (mmul d m).
Proof.
  intros (A & B & C & D & E & F & G & I & J).
  unfold mderiv, mmul. cbn [m00 m01 m02 m10 m11 m12 m20 m21 m22].
  repeat split;
  match goal with |- derivable_pt_lim _ _
    (m00 d * ?x + m01 d * ?y + m02 d * ?z) =>
      eapply derivable_pt_lim_ext; [|apply (dlin3 _ _ _ t _ _ _ x y z 0 A B C)];
      intros; cbn beta; ring
  | |- derivable_pt_lim _ _ (m10 d * ?x + m11 d * ?y + m12 d * ?z) =>
      eapply derivable_pt_lim_ext; [|apply (dlin3 _ _ _ t _ _ _ x y z 0 D E F)];
      intros; cbn beta; ring
  | |- derivable_pt_lim _ _ (m20 d * ?x + m21 d * ?y + m22 d * ?z) =>
      eapply derivable_pt_lim_ext; [|apply (dlin3 _ _ _ t _ _ _ x y z 0 G I J)];
      intros; cbn beta; ring
  end.
Qed.

(* ---------------------------------------------------------------- *)
(** Linearity of the jacobian product in the columns. *)
Lemma jvel_map (f : vec3 * vec3 -> vec3 * vec3) j qd :
  (forall x c r, f (vadd (vscal x (fst c)) (fst r),
                    vadd (vscal x (snd c)) (snd r))
     = (vadd (vscal x (fst (f c))) (fst (f r)),
        vadd (vscal x (snd (f c))) (snd (f r)))) ->
  f (v0, v0) = (v0, v0) ->
  jvel (map f j) qd = f (jvel j qd).
Proof.
  intros Hlin H0. revert qd.
  induction j as [|c j IH]; intros [|x qd]; cbn [map jvel]; try (symmetry; exact H0).
  rewrite IH, Hlin. reflexivity.
Qed.

Lemma pair_ext (p q : vec3 * vec3) : fst p = fst q -> snd p = snd q -> p = q.
Proof. destruct p, q; cbn; intros; subst; reflexivity. Qed.

(** World jacobian: the shifted point gets v + w x d, the rotation is kept,
    for every joint velocity. *)
Theorem op_point_world tr pos j qd :
  let n := jvel j qd in
  let d := mapp (lin pos) (trn tr) in
  jvel (opm_jacobian (mkOpm tr false) pos j) qd
  = (vadd (fst n) (cross (snd n) d), snd n).
Proof.
  cbv zeta. unfold opm_jacobian. cbn [isEndEffector transformation].
  generalize (mapp (lin pos) (trn tr)). intros d.
  rewrite jvel_map.
  - apply pair_ext; cbn [fst snd]; [|reflexivity].
    destruct (jvel j qd) as [v w]. cbn [fst snd]. gring.
  - intros x [v w] [v' w']. apply pair_ext; cbn [fst snd]; [gring|reflexivity].
  - apply pair_ext; cbn [fst snd]; [gring|reflexivity].
Qed.

(** Body jacobian: the same velocity, measured in the end frame. *)
Theorem op_point_body tr pos j qd : is_rigid tr ->
  let n := jvel j qd in
  jvel (opm_jacobian (mkOpm tr true) pos j) qd
  = (mapp (mT (lin tr)) (vadd (fst n) (cross (snd n) (trn tr))),
     mapp (mT (lin tr)) (snd n)).
Proof.
  intros Hr. cbv zeta. unfold opm_jacobian, tjac.
  cbn [isEndEffector transformation].
  rewrite jvel_map.
  - destruct (jvel j qd) as [v w]. unfold tapp, buildFrom, hinv.
    cbn [b00 b01 b10 b11 lin trn fst snd].
    rewrite (rot_inv _ Hr), mapp_mmul, skew_app, mapp_zero, vadd_v0_l.
    f_equal. rewrite mapp_vadd, (rot_cross _ _ _ (rot_T _ Hr)).
    f_equal. generalize (mapp (mT (lin tr)) (trn tr)) (mapp (mT (lin tr)) w). gring.
  - intros x [v w] [v' w']. unfold tapp. cbn [fst snd].
    apply pair_ext; cbn [fst snd]; rewrite !mapp_vadd, !mapp_vscal; gring.
  - unfold tapp. cbn [fst snd]. rewrite !mapp_v0, vadd_v0_l. reflexivity.
Qed.

(** Both conventions describe the same velocity: feeding the world jacobian of
    the original point (its body jacobian rotated to the world) to the world
    version gives the body version rotated by the orientation of the new
    frame. *)
Theorem op_point_body_world tr pos j qd : is_rigid tr -> is_rot (lin pos) ->
  let rot (r : mat3) (n : vec3 * vec3) := (mapp r (fst n), mapp r (snd n)) in
  jvel (opm_jacobian (mkOpm tr false) pos (map (rot (lin pos)) j)) qd
  = rot (lin (opm_position (mkOpm tr true) pos))
        (jvel (opm_jacobian (mkOpm tr true) pos j) qd).
Proof.
  intros Hr Hp. cbv zeta.
  rewrite op_point_world, op_point_body by exact Hr.
  rewrite (jvel_map (fun n => (mapp (lin pos) (fst n), mapp (lin pos) (snd n)))).
  - destruct (jvel j qd) as [v w]. cbn [fst snd].
    unfold opm_position, hmul. cbn [lin transformation].
    rewrite <- !mapp_mmul, <- mmul_assoc, (rot_mT_r _ Hr), mmul_1_r.
    rewrite mapp_vadd, (rot_cross _ _ _ Hp). reflexivity.
  - intros x [v w] [v' w']. cbn [fst snd].
    rewrite !mapp_vadd, !mapp_vscal. reflexivity.
  - cbn [fst snd]. now rewrite !mapp_v0.
Qed.

(** Meaning of the outputs: if the input jacobian gives the velocity of the
    input frame, the output jacobian gives the velocity of the output frame. *)
Theorem op_point_jacobian_world M tr j qd t :
  world_velocity M t (jvel j qd) ->
  world_velocity (fun s => opm_position (mkOpm tr false) (M s)) t
    (jvel (opm_jacobian (mkOpm tr false) (M t) j) qd).
Proof.
  intros [Hp Hr]. rewrite op_point_world.
  destruct (jvel j qd) as [v w]. cbn [fst snd] in *.
  unfold world_velocity, opm_position, hmul. cbn [fst snd lin trn transformation].
  split.
  - rewrite vadd_comm.
    replace (cross w (mapp (lin (M t)) (trn tr)))
      with (mapp (mmul (skew w) (lin (M t))) (trn tr))
      by (rewrite mapp_mmul; apply skew_app).
    apply vderiv_add; [|exact Hp].
    apply (mderiv_mapp (fun s => lin (M s))), Hr.
  - rewrite mmul_assoc. apply (mderiv_mmul_r (fun s => lin (M s))), Hr.
Qed.

Theorem op_point_jacobian_body M tr j qd t :
  is_rigid tr -> is_rot (lin (M t)) ->
  body_velocity M t (jvel j qd) ->
  body_velocity (fun s => opm_position (mkOpm tr true) (M s)) t
    (jvel (opm_jacobian (mkOpm tr true) (M t) j) qd).
Proof.
  intros Htr HM [Hp Hr]. rewrite op_point_body by exact Htr.
  destruct (jvel j qd) as [v w]. cbn [fst snd] in *.
  unfold body_velocity, opm_position, hmul. cbn [fst snd lin trn transformation].
  split.
  - rewrite <- mapp_mmul, <- mmul_assoc, (rot_mT_r _ Htr), mmul_1_r, mapp_vadd,
      vadd_comm.
    replace (mapp (lin (M t)) (cross w (trn tr)))
      with (mapp (mmul (lin (M t)) (skew w)) (trn tr))
      by (rewrite mapp_mmul, skew_app; reflexivity).
    apply vderiv_add; [|exact Hp].
    apply (mderiv_mapp (fun s => lin (M s))), Hr.
  - rewrite <- mmul_assoc.
    replace (mmul (lin tr) (skew (mapp (mT (lin tr)) w)))
      with (mmul (skew w) (lin tr)).
    + rewrite mmul_assoc. apply (mderiv_mmul_r (fun s => lin (M s))), Hr.
    + rewrite <- (rot_skew _ _ Htr), <- mapp_mmul, (rot_mT_r _ Htr), mapp_id.
      reflexivity.
Qed.

(** ** Non-vacuity: a frame turning about z at unit speed while translating. *)
Example ex_world_velocity :
  let M := fun s => H (axisMat AXIS_Z s) (V3 s 0 0) in
  let j := [(V3 1 0 0, V3 0 0 1)] in
  world_velocity M 0 (jvel j [1]) /\
  jvel (opm_jacobian (mkOpm (H mid (V3 0 2 0)) false) (M 0) j) [1]
    = (V3 (-1) 0 0, V3 0 0 1).
Proof.
  cbv zeta. split.
  - unfold world_velocity, vderiv, mderiv, axisMat, mmul, skew. cbn -[derivable_pt_lim IZR Rmult Rplus cos sin].
    rewrite cos_0, sin_0.
    assert (K : forall c, derivable_pt_lim (fun _ => c) 0 0)
      by (intros; apply derivable_pt_lim_const).
    assert (S : derivable_pt_lim sin 0 1)
      by (rewrite <- cos_0; apply derivable_pt_lim_sin).
    assert (C : derivable_pt_lim cos 0 0)
      by (replace 0 with (- sin 0) at 2 by (rewrite sin_0; ring);
          apply derivable_pt_lim_cos).
    assert (N : derivable_pt_lim (fun s => - sin s) 0 (-1))
      by (apply (derivable_pt_lim_opp sin 0 1), S).
    repeat split;
      match goal with
      | |- derivable_pt_lim (fun s => s) _ ?l => replace l with 1 by ring; apply derivable_pt_lim_id
      | |- derivable_pt_lim (fun s => sin s) _ ?l => replace l with 1 by ring; exact S
      | |- derivable_pt_lim (fun s => cos s) _ ?l => replace l with 0 by ring; exact C
      | |- derivable_pt_lim (fun s => - sin s) _ ?l => replace l with (-1) by ring; exact N
      | |- derivable_pt_lim _ _ ?l => replace l with 0 by ring; apply K
      end.
  - rewrite op_point_world. unfold axisMat. cbn [jvel fst snd lin trn].
    rewrite cos_0, sin_0. unfold cross, vadd, vscal, mapp, v0. gcbn.
    f_equal; f_equal; ring.
Qed.

Print Assumptions op_point_jacobian_world.
Print Assumptions op_point_jacobian_body.
Print Assumptions op_point_body_world.
