(** C56: the orientation filter of the inertial unit. *)
From Coq Require Import String List Arith Lia ZArith Bool Reals Lra Psatz SpecFloat.
From Verif Require Import Base Float_Facts Geom_Model Geom_Facts Geom_Rot Madgwick_Model.
Import ListNotations.
Local Open Scope R_scope.

(** ** Specification *)
(** Vertical direction seen from the sensor at orientation [q] (third row of the rotation matrix,
    written as in the filter), and the squared distance to the measured direction [a]. *)
Definition gravity_error (q : quat) (a : vec3) : vec3 :=
  V3 (2 * (qx q * qz q - qw q * qy q) - vx a)
     (2 * (qw q * qx q + qy q * qz q) - vy a)
     (2 * (1 / 2 - qx q * qx q - qy q * qy q) - vz a).
Definition objective (q : quat) (a : vec3) : R := 1 / 2 * vdot (gravity_error q a) (gravity_error q a).
Definition vertical_seen (q : quat) : vec3 := V3 (m20 (quatToMat q)) (m21 (quatToMat q)) (m22 (quatToMat q)).
Definition qnorm2 (q : quat) : R := qw q * qw q + qx q * qx q + qy q * qy q + qz q * qz q.
Definition normalised (a : vec3) : vec3 := vscal (/ vnorm a) a.

(** ** Lemmas *)
Lemma qdot_norm q : qdot q q = qnorm2 q.
Proof. reflexivity. Qed.
Lemma qnorm2_pos q : 0 <= qnorm2 q.
Proof. unfold qnorm2. nra. Qed.

Lemma invSqrt_spec x n : invSqrt x = Some n -> 0 < x /\ n * n * x = 1 /\ 0 < n.
Proof.
  unfold invSqrt. destruct (Rlt_dec 0 x); [|discriminate]. intros [= <-].
  assert (S : 0 < sqrt x) by now apply sqrt_lt_R0. split; [assumption|]. split.
  - rewrite <- (sqrt_sqrt x) at 3 by lra. field. lra.
  - apply Rdiv_lt_0_compat; lra.
Qed.
Lemma invSqrt_some x : 0 < x -> exists n, invSqrt x = Some n.
Proof. unfold invSqrt. destruct (Rlt_dec 0 x); [eauto|contradiction]. Qed.

Lemma qnorm2_scal k q : qnorm2 (qscal k q) = k * k * qnorm2 q.
Proof. unfold qnorm2, qscal. cbn. ring. Qed.
Lemma qzerob_false q : qzerob q = false -> 0 < qnorm2 q.
Proof.
  unfold qzerob, qnorm2. destruct q as [w x y z]. cbn.
  destruct (Req_EM_T w 0); [|nra]. destruct (Req_EM_T x 0); [|nra]. destruct (Req_EM_T y 0); [|nra].
  destruct (Req_EM_T z 0); [discriminate|nra].
Qed.
Lemma qzerob_true q : qzerob q = true -> q = Q 0 0 0 0.
Proof.
  unfold qzerob. destruct q as [w x y z]. cbn.
  destruct (Req_EM_T w 0); [|discriminate]. destruct (Req_EM_T x 0); [|discriminate]. destruct (Req_EM_T y 0); [|discriminate].
  destruct (Req_EM_T z 0); [|discriminate]. intros _. now subst.
Qed.
Lemma vzerob_spec a : (vzerob a = true <-> a = v0) /\ (vzerob a = false -> 0 < vdot a a).
Proof.
  unfold vzerob, vdot. destruct a as [x y z]. cbn. unfold v0.
  destruct (Req_EM_T x 0) as [-> |]; [|split; [split; [discriminate|congruence]|nra]].
  destruct (Req_EM_T y 0) as [-> |]; [|split; [split; [discriminate|congruence]|nra]].
  destruct (Req_EM_T z 0) as [-> |]; [|split; [split; [discriminate|congruence]|nra]].
  split; [split; auto|discriminate].
Qed.

(** ** The parts of the update *)

(** The rate from the gyroscope is the kinematics of quaternions, half q times (0, g): it is
    orthogonal to the quaternion. *)
Theorem gyro_kinematics q g :
  gyro_rate q g = qscal (1 / 2) (qmul q (Q 0 (vx g) (vy g) (vz g))) /\ qdot q (gyro_rate q g) = 0.
Proof.
  destruct q as [w x y z], g as [a b c]. unfold gyro_rate, qscal, qmul, qdot. cbn. split; [f_equal; field|field].
Qed.

(** The corrective step is the gradient of the objective. *)
Theorem corrective_gradient q0 q1 q2 q3 a :
  derivable_pt_lim (fun t => objective (Q t q1 q2 q3) a) q0 (qw (corrective (Q q0 q1 q2 q3) a)) /\
  derivable_pt_lim (fun t => objective (Q q0 t q2 q3) a) q1 (qx (corrective (Q q0 q1 q2 q3) a)) /\
  derivable_pt_lim (fun t => objective (Q q0 q1 t q3) a) q2 (qy (corrective (Q q0 q1 q2 q3) a)) /\
  derivable_pt_lim (fun t => objective (Q q0 q1 q2 t) a) q3 (qz (corrective (Q q0 q1 q2 q3) a)).
Proof.
  (* a polynomial of degree four in one variable *)
  assert (D : forall c0 c1 c2 c3 c4 x f, (forall t, f t = c0 + c1 * t + c2 * t ^ 2 + c3 * t ^ 3 + c4 * t ^ 4) ->
            derivable_pt_lim f x (c1 + 2 * c2 * x + 3 * c3 * x ^ 2 + 4 * c4 * x ^ 3)).
  { intros c0 c1 c2 c3 c4 x f E.
    apply (derivable_pt_lim_ext (fct_cte c0 + mult_real_fct c1 id + mult_real_fct c2 (fun t => t ^ 2) +
              mult_real_fct c3 (fun t => t ^ 3) + mult_real_fct c4 (fun t => t ^ 4))%F).
    { intros t. rewrite E. unfold plus_fct, mult_real_fct, fct_cte, id. reflexivity. }
    replace (c1 + 2 * c2 * x + 3 * c3 * x ^ 2 + 4 * c4 * x ^ 3)
      with (0 + c1 * 1 + c2 * (INR 2 * x ^ Nat.pred 2) + c3 * (INR 3 * x ^ Nat.pred 3) + c4 * (INR 4 * x ^ Nat.pred 4))
      by (cbn; ring).
    repeat apply derivable_pt_lim_plus; try apply derivable_pt_lim_const; apply derivable_pt_lim_scal;
      try apply derivable_pt_lim_pow. apply derivable_pt_lim_id. }
  destruct a as [ax ay az]. unfold objective, gravity_error, vdot, corrective.
  cbn [qw qx qy qz vx vy vz].
  repeat split.
  - eapply eq_rect; [eapply (D (1 / 2 * ((2 * q1 * q3 - ax) * (2 * q1 * q3 - ax) + (2 * q2 * q3 - ay) * (2 * q2 * q3 - ay) + (1 - 2 * q1 * q1 - 2 * q2 * q2 - az) * (1 - 2 * q1 * q1 - 2 * q2 * q2 - az)))
        (1 / 2 * (- 4 * q2 * (2 * q1 * q3 - ax) + 4 * q1 * (2 * q2 * q3 - ay))) (1 / 2 * (4 * q2 * q2 + 4 * q1 * q1)) 0 0);
      intros t; field|field].
  - eapply eq_rect; [eapply (D (1 / 2 * ((- 2 * q0 * q2 - ax) * (- 2 * q0 * q2 - ax) + (2 * q2 * q3 - ay) * (2 * q2 * q3 - ay) + (1 - 2 * q2 * q2 - az) * (1 - 2 * q2 * q2 - az)))
        (1 / 2 * (4 * q3 * (- 2 * q0 * q2 - ax) + 4 * q0 * (2 * q2 * q3 - ay)))
        (1 / 2 * (4 * q3 * q3 + 4 * q0 * q0 - 4 * (1 - 2 * q2 * q2 - az))) 0 2);
      intros t; field|field].
  - eapply eq_rect; [eapply (D (1 / 2 * ((2 * q1 * q3 - ax) * (2 * q1 * q3 - ax) + (2 * q0 * q1 - ay) * (2 * q0 * q1 - ay) + (1 - 2 * q1 * q1 - az) * (1 - 2 * q1 * q1 - az)))
        (1 / 2 * (- 4 * q0 * (2 * q1 * q3 - ax) + 4 * q3 * (2 * q0 * q1 - ay)))
        (1 / 2 * (4 * q0 * q0 + 4 * q3 * q3 - 4 * (1 - 2 * q1 * q1 - az))) 0 2);
      intros t; field|field].
  - eapply eq_rect; [eapply (D (1 / 2 * ((- 2 * q0 * q2 - ax) * (- 2 * q0 * q2 - ax) + (2 * q0 * q1 - ay) * (2 * q0 * q1 - ay) + (1 - 2 * q1 * q1 - 2 * q2 * q2 - az) * (1 - 2 * q1 * q1 - 2 * q2 * q2 - az)))
        (1 / 2 * (4 * q1 * (- 2 * q0 * q2 - ax) + 4 * q2 * (2 * q0 * q1 - ay))) (1 / 2 * (4 * q1 * q1 + 4 * q2 * q2)) 0 0);
      intros t; field|field].
Qed.

(** The error is the difference between the vertical seen from the estimated orientation and the
    measured direction. *)
Theorem error_is_vertical q a : unit_quat q -> gravity_error q a = vsub (vertical_seen q) a.
Proof.
  intros U. destruct q as [w x y z], a as [ax ay az]. unfold unit_quat in U. cbn in U.
  unfold gravity_error, vertical_seen, vsub, quatToMat. cbn. f_equal; lra.
Qed.

(** ** Unit norm *)
Lemma qnorm2_add a b : qnorm2 (qadd a b) = qnorm2 a + 2 * qdot a b + qnorm2 b.
Proof. unfold qnorm2, qadd, qdot. cbn. ring. Qed.
Lemma qdot_scal_r k a b : qdot a (qscal k b) = k * qdot a b.
Proof. unfold qdot, qscal. cbn. ring. Qed.

Lemma cauchy a b : qdot a b * qdot a b <= qnorm2 a * qnorm2 b.
Proof.
  destruct a as [a0 a1 a2 a3], b as [b0 b1 b2 b3]. unfold qdot, qnorm2. cbn.
  enough (0 <= (a0 * b1 - a1 * b0)^2 + (a0 * b2 - a2 * b0)^2 + (a0 * b3 - a3 * b0)^2 +
               (a1 * b2 - a2 * b1)^2 + (a1 * b3 - a3 * b1)^2 + (a2 * b3 - a3 * b2)^2) by nra.
  repeat apply Rplus_le_le_0_compat; apply pow2_ge_0.
Qed.

(** A sum is not zero when the second term is shorter than the first. *)
Lemma qadd_nonzero a b : qnorm2 b < qnorm2 a -> 0 < qnorm2 (qadd a b).
Proof.
  intros H. rewrite qnorm2_add. pose proof (cauchy a b) as C. pose proof (qnorm2_pos b) as P.
  set (x := qdot a b) in *. set (A := qnorm2 a) in *. set (B := qnorm2 b) in *. clearbody x A B.
  destruct (Rlt_dec 0 (A + 2 * x + B)); [assumption|]. exfalso.
  assert (A + B <= - 2 * x) by lra. assert ((A + B) * (A + B) <= 4 * (x * x)) by nra. nra.
Qed.

(** The rate used by an update: the one of the gyroscope, minus beta times a unit direction. *)
Definition rate_of (s : mad) (g a : vec3) (r : quat) : Prop :=
  r = gyro_rate (ma_q s) g \/
  exists u, qnorm2 u = 1 /\ r = qadd (gyro_rate (ma_q s) g) (qscal (- ma_beta s) u).

Lemma update_cases s g a :
  exists r, rate_of s g a r /\
    updateIMU s g a =
      (let q1 := qadd (ma_q s) (qscal (1 / ma_freq s) r) in
       match invSqrt (qdot q1 q1) with
       | None => None
       | Some n => Some (mkMad (ma_init s) (ma_beta s) (qscal n q1) (ma_freq s)) end).
Proof.
  unfold updateIMU. destruct (vzerob a) eqn:Va.
  - exists (gyro_rate (ma_q s) g). split; [left; reflexivity|reflexivity].
  - destruct (vzerob_spec a) as [_ P]. specialize (P Va). unfold vdot in P. destruct (invSqrt_some _ P) as (n & En).
    rewrite En. cbv zeta. destruct (qzerob _) eqn:Zc.
    + exists (gyro_rate (ma_q s) g). split; [left; reflexivity|reflexivity].
    + apply qzerob_false in Zc. rewrite qdot_norm.
      set (st := corrective _ _) in *. destruct (invSqrt_some _ Zc) as (m & Em). rewrite Em.
      eexists. split; [|reflexivity]. right. exists (qscal m st). split; [|reflexivity].
      rewrite qnorm2_scal. apply invSqrt_spec in Em. lra.
Qed.

(** After every update that is not degenerate the quaternion has unit norm... *)
Theorem update_unit_norm s g a s' : updateIMU s g a = Some s' -> qnorm2 (ma_q s') = 1.
Proof.
  intros E. destruct (update_cases s g a) as (r & _ & E'). rewrite E' in E. cbv zeta in E.
  destruct (invSqrt _) as [n|] eqn:N; [|discriminate]. injection E as <-. cbn [ma_q].
  rewrite qnorm2_scal, <- qdot_norm. apply invSqrt_spec in N. lra.
Qed.

(** ... so that, from any state, whatever the commands sent before, every output produced has unit norm
    and is the state; before init nothing is output and nothing changes. *)
Theorem output_unit_norm s l s1 g a s2 out : mrun s l = Some s1 -> imu_quat s1 g a = Some (s2, out) ->
  (ma_init s1 = true -> out = Some (ma_q s2) /\ qnorm2 (ma_q s2) = 1) /\
  (ma_init s1 = false -> out = None /\ s2 = s1).
Proof.
  intros _. unfold imu_quat. destruct (ma_init s1); intros E; (split; intros I; [|]); try discriminate.
  - destruct (updateIMU s1 g a) as [s3|] eqn:U; [|discriminate]. injection E as <- <-.
    split; [reflexivity|]. eapply update_unit_norm; eassumption.
  - injection E as <- <-. auto.
Qed.

(** ... and an update is never degenerate when the step beta * dt is shorter than the quaternion. *)
Theorem update_defined s g a :
  ma_beta s * (1 / ma_freq s) * (ma_beta s * (1 / ma_freq s)) < qnorm2 (ma_q s) ->
  exists s', updateIMU s g a = Some s' /\ qnorm2 (ma_q s') = 1 /\
    ma_init s' = ma_init s /\ ma_beta s' = ma_beta s /\ ma_freq s' = ma_freq s.
Proof.
  intros H. assert (P : 0 < qnorm2 (ma_q s)) by nra.
  destruct (update_cases s g a) as (r & Hr & E). rewrite E. cbv zeta.
  set (dt := 1 / ma_freq s) in *.
  assert (K : 0 < qdot (qadd (ma_q s) (qscal dt r)) (qadd (ma_q s) (qscal dt r))).
  { rewrite qdot_norm. destruct (gyro_kinematics (ma_q s) g) as [_ Or].
    assert (B : qnorm2 (ma_q s) <= qnorm2 (qadd (ma_q s) (qscal dt (gyro_rate (ma_q s) g)))).
    { rewrite qnorm2_add, qdot_scal_r, Or, qnorm2_scal. pose proof (qnorm2_pos (gyro_rate (ma_q s) g)). nra. }
    destruct Hr as [-> |(u & Hu & ->)]; [lra|].
    replace (qadd (ma_q s) (qscal dt (qadd (gyro_rate (ma_q s) g) (qscal (- ma_beta s) u))))
      with (qadd (qadd (ma_q s) (qscal dt (gyro_rate (ma_q s) g))) (qscal (- (ma_beta s * dt)) u))
      by (unfold qadd, qscal; cbn; f_equal; ring).
    apply qadd_nonzero. rewrite qnorm2_scal, Hu. lra. }
  destruct (invSqrt_some _ K) as (n & N). rewrite N. eexists. split; [reflexivity|]. cbn.
  apply invSqrt_spec in N. rewrite qnorm2_scal, <- qdot_norm. repeat split. lra.
Qed.

(** All histories: with time steps below one second and orientations set to unit quaternions, every
    history of commands and measurements is defined and the state stays a unit quaternion. *)
Definition mcmd_ok (c : mcmd) : Prop :=
  match c with MInit dt => dt < 1 | MQuat q => qnorm2 q = 1 | _ => True end.

Theorem filter_unit_norm l : Forall mcmd_ok l ->
  exists s, mrun ma_start l = Some s /\ qnorm2 (ma_q s) = 1 /\ 0 <= ma_beta s <= 1.
Proof.
  intros HF.
  assert (G : forall s, qnorm2 (ma_q s) = 1 -> 0 <= ma_beta s <= 1 -> 1 < ma_freq s ->
     exists s', mrun s l = Some s' /\ qnorm2 (ma_q s') = 1 /\ 0 <= ma_beta s' <= 1).
  { induction HF as [|c l Hc HF IH]; intros s Hq Hb Hf; [exists s; auto|]. cbn [mrun].
    assert (X : exists s1, mexec s c = Some s1 /\ qnorm2 (ma_q s1) = 1 /\ 0 <= ma_beta s1 <= 1 /\ 1 < ma_freq s1).
    { destruct c as [dt|b|q|g a]; cbn [mexec mcmd_ok] in *.
      - eexists. split; [reflexivity|]. unfold ma_do_init. destruct (Rle_dec dt 0); cbn; [auto|].
        repeat split; try tauto. apply (Rmult_lt_reg_r dt); [lra|]. field_simplify; lra.
      - eexists. split; [reflexivity|]. unfold set_beta. destruct (Rlt_dec b 0); cbn; [auto|].
        destruct (Rlt_dec 1 b); cbn; [auto|]. repeat split; try assumption; lra.
      - eexists. split; [reflexivity|]. cbn. auto.
      - unfold imu_quat. destruct (ma_init s); [|exists s; auto].
        destruct (update_defined s g a) as (s1 & E & N & _ & B & F).
        { rewrite Hq. set (k := 1 / ma_freq s). assert (0 < k < 1).
          { unfold k. split; [apply Rdiv_lt_0_compat; lra|]. apply (Rmult_lt_reg_r (ma_freq s)); [lra|]. field_simplify; lra. }
          assert (0 <= ma_beta s * k < 1) by (split; nra). nra. }
        rewrite E. exists s1. rewrite B, F. auto. }
    destruct X as (s1 & E & A & B & C). rewrite E. apply IH; assumption. }
  apply G; cbn; unfold qnorm2; cbn; lra.
Qed.

(** Until init is called with a positive period, the measurements are not used and nothing is
    published. *)
Theorem filter_before_init l : (forall dt, In (MInit dt) l -> dt <= 0) ->
  exists s, mrun ma_start l = Some s /\ forall g a, imu_quat s g a = Some (s, None).
Proof.
  intros Hl. cut (exists s, mrun ma_start l = Some s /\ ma_init s = false).
  { intros (s & E & I). exists s. split; [exact E|]. intros g a. unfold imu_quat. now rewrite I. }
  generalize (eq_refl : ma_init ma_start = false). generalize ma_start.
  induction l as [|c l IH]; intros s I; [exists s; auto|]. cbn [mrun].
  assert (X : exists s1, mexec s c = Some s1 /\ ma_init s1 = false).
  { destruct c as [dt|b|q|g a]; cbn [mexec].
    - exists s. unfold ma_do_init. destruct (Rle_dec dt 0) as [|N]; [auto|]. destruct N. apply Hl. now left.
    - eexists. split; [reflexivity|]. unfold set_beta. destruct (Rlt_dec b 0); [exact I|]. destruct (Rlt_dec 1 b); exact I.
    - eexists. split; [reflexivity|]. exact I.
    - unfold imu_quat. rewrite I. exists s. auto. }
  destruct X as (s1 & E & I1). rewrite E. apply IH; [|exact I1]. intros dt K. apply Hl. now right.
Qed.

(** Until they are given, the gain is 0.01 and the orientation is the identity. *)
Theorem filter_defaults l s : mrun ma_start l = Some s ->
  ((forall b, ~ In (MBeta b) l) -> ma_beta s = 1 / 100) /\
  ((forall q g a, ~ In (MQuat q) l /\ ~ In (MStep g a) l) -> ma_q s = Q 1 0 0 0).
Proof.
  intros E.
  enough (G : forall s0, mrun s0 l = Some s ->
    ((forall b, ~ In (MBeta b) l) -> ma_beta s = ma_beta s0) /\
    ((forall q g a, ~ In (MQuat q) l /\ ~ In (MStep g a) l) -> ma_q s = ma_q s0)) by exact (G _ E).
  clear E. induction l as [|c l IH]; intros s0 E; cbn [mrun] in E; [injection E as <-; auto|].
  destruct (mexec s0 c) as [s1|] eqn:E1; [|discriminate]. destruct (IH _ E) as [A B]. split.
  - intros H. rewrite A by (intros b K; apply (H b); now right).
    destruct c as [dt|b|q|g a]; cbn [mexec] in E1.
    + injection E1 as <-. unfold ma_do_init. destruct (Rle_dec dt 0); reflexivity.
    + exfalso. apply (H b). now left.
    + injection E1 as <-. reflexivity.
    + unfold imu_quat in E1. destruct (ma_init s0); [|injection E1 as <-; reflexivity].
      destruct (updateIMU s0 g a) as [s2|] eqn:E2; [|discriminate]. injection E1 as <-. revert E2. unfold updateIMU.
      match goal with |- match ?x with Some _ => _ | None => _ end = _ -> _ => destruct x as [r|]; [|discriminate] end.
      destruct (invSqrt _); [|discriminate]. intros [= <-]. reflexivity.
  - intros H. rewrite B by (intros q g a; destruct (H q g a) as [H1 H2]; split; intros K; [apply H1|apply H2]; now right).
    destruct c as [dt|b|q|g a]; cbn [mexec] in E1.
    + injection E1 as <-. unfold ma_do_init. destruct (Rle_dec dt 0); reflexivity.
    + injection E1 as <-. unfold set_beta. destruct (Rlt_dec b 0); [reflexivity|]. destruct (Rlt_dec 1 b); reflexivity.
    + exfalso. destruct (H q v0 v0) as [H1 _]. apply H1. now left.
    + exfalso. destruct (H (Q 0 0 0 0) g a) as [_ H1]. apply H1. now left.
Qed.

(** From the null quaternion (accepted by set_imu_quat) the first update is degenerate. *)
Theorem null_quaternion_refuted : exists l, mrun ma_start l = None.
Proof.
  exists [MInit (1 / 100); MQuat (Q 0 0 0 0); MStep v0 v0]. cbn. unfold ma_do_init.
  destruct (Rle_dec (1 / 100) 0); [lra|]. cbn. unfold imu_quat, updateIMU. cbn. unfold vzerob. cbn.
  destruct (Req_EM_T 0 0); [|congruence]. unfold invSqrt, qdot, qadd, qscal. cbn.
  match goal with |- context [Rlt_dec 0 ?x] => destruct (Rlt_dec 0 x) as [L|L] end; [|reflexivity].
  exfalso. match type of L with 0 < ?x => replace x with 0 in L by field end. lra.
Qed.

(** ** Fixed points and gyroscope integration *)

(** No rotation, measured direction equal to the vertical seen from the estimate: unchanged. *)
Theorem filter_fixed_point s k : unit_quat (ma_q s) -> 0 < k -> ma_freq s <> 0 ->
  updateIMU s v0 (vscal k (vertical_seen (ma_q s))) = Some s.
Proof.
  intros U Hk Hf. pose proof (quatToMat_rot _ U) as Rt. destruct (rot_rows _ Rt) as (_ & _ & _ & _ & _ & R5).
  set (v := vertical_seen (ma_q s)) in *. assert (V1 : vdot v v = 1) by exact R5.
  assert (E : updateIMU s v0 (vscal k v) =
    (let q1 := qadd (ma_q s) (qscal (1 / ma_freq s) (gyro_rate (ma_q s) v0)) in
       match invSqrt (qdot q1 q1) with
       | None => None
       | Some n => Some (mkMad (ma_init s) (ma_beta s) (qscal n q1) (ma_freq s)) end)).
  { unfold updateIMU. destruct (vzerob_spec (vscal k v)) as [Z0 _].
    destruct (vzerob (vscal k v)) eqn:Z; [reflexivity|].
    assert (Nk : vx (vscal k v) * vx (vscal k v) + vy (vscal k v) * vy (vscal k v) + vz (vscal k v) * vz (vscal k v) = k * k).
    { transitivity (k * k * vdot v v); [unfold vscal, vdot; cbn; ring|rewrite V1; ring]. }
    rewrite Nk. destruct (invSqrt_some (k * k)) as (n & En); [nra|]. rewrite En.
    apply invSqrt_spec in En. destruct En as (_ & En & Pn).
    assert (nk : k * n = 1). { assert (0 < k * n) by nra. assert ((k * n) * (k * n) = 1) by lra. nra. }
    replace (V3 (vx (vscal k v) * n) (vy (vscal k v) * n) (vz (vscal k v) * n)) with v.
    2: { destruct v as [a b c]. unfold vscal. cbn. f_equal.
         - transitivity (k * n * a); [rewrite nk; ring|ring].
         - transitivity (k * n * b); [rewrite nk; ring|ring].
         - transitivity (k * n * c); [rewrite nk; ring|ring]. }
    assert (Z1 : corrective (ma_q s) v = Q 0 0 0 0).
    { unfold v, vertical_seen. destruct (ma_q s) as [w x y z]. unfold unit_quat in U. cbn in U. unfold quatToMat, corrective. cbn.
      assert (W : w * w = 1 - x * x - y * y - z * z) by lra.
      f_equal; ring_simplify; ring [W]. }
    rewrite Z1. assert (Zt : qzerob (Q 0 0 0 0) = true).
    { unfold qzerob. cbn. destruct (Req_EM_T 0 0); [reflexivity|congruence]. }
    rewrite Zt. reflexivity. }
  rewrite E. cbv zeta. assert (G0 : gyro_rate (ma_q s) v0 = Q 0 0 0 0).
  { destruct (ma_q s). unfold gyro_rate, v0. f_equal; ring. }
  rewrite G0. assert (A0 : qadd (ma_q s) (qscal (1 / ma_freq s) (Q 0 0 0 0)) = ma_q s).
  { destruct (ma_q s). unfold qadd, qscal. cbn. f_equal; ring. }
  rewrite A0. replace (qdot (ma_q s) (ma_q s)) with 1 by (symmetry; exact U).
  unfold invSqrt. destruct (Rlt_dec 0 1); [|lra]. rewrite sqrt_1. replace (1 / 1) with 1 by field.
  replace (qscal 1 (ma_q s)) with (ma_q s) by (destruct (ma_q s); unfold qscal; cbn; f_equal; ring).
  destruct s; reflexivity.
Qed.

(** Without a valid acceleration the update only integrates the gyroscope. *)
Theorem filter_gyro_only s g s' : updateIMU s g v0 = Some s' ->
  exists n, 0 < n /\
  ma_q s' = qscal n (qadd (ma_q s) (qscal (1 / ma_freq s * (1 / 2)) (qmul (ma_q s) (Q 0 (vx g) (vy g) (vz g))))).
Proof.
  unfold updateIMU. replace (vzerob v0) with true by (symmetry; apply vzerob_spec; reflexivity).
  destruct (gyro_kinematics (ma_q s) g) as [-> _]. cbv zeta. destruct (invSqrt _) as [n|] eqn:N; [|discriminate].
  intros [= <-]. exists n. split; [apply (invSqrt_spec _ _ N)|]. cbn [ma_q]. f_equal. f_equal. unfold qscal. cbn.
  f_equal; ring.
Qed.

(** Correction: with no rotation the objective decreases along the step, at rate beta times the norm of
    the gradient. *)
Theorem filter_descent q a b : 0 < qnorm2 (corrective q a) ->
  derivable_pt_lim (fun t => objective (qadd q (qscal (- (t * b)) (qscal (/ sqrt (qnorm2 (corrective q a))) (corrective q a)))) a)
    0 (- (b * sqrt (qnorm2 (corrective q a)))).
Proof.
  intros P. set (st := corrective q a) in *. set (N := sqrt (qnorm2 st)).
  assert (N0 : 0 < N) by now apply sqrt_lt_R0.
  assert (NN : N * N = qnorm2 st) by (apply sqrt_sqrt; lra).
  destruct q as [q0 q1 q2 q3], a as [ax ay az].
  destruct st as [s0 s1 s2 s3] eqn:Est. unfold qnorm2 in NN. cbn in NN.
  (* the quadratic map along a line *)
  set (k := - (b * / N)).
  assert (D : forall c0 c1 c2 c3 c4 x f, (forall t, f t = c0 + c1 * t + c2 * t ^ 2 + c3 * t ^ 3 + c4 * t ^ 4) ->
            derivable_pt_lim f x (c1 + 2 * c2 * x + 3 * c3 * x ^ 2 + 4 * c4 * x ^ 3)).
  { intros c0 c1 c2 c3 c4 x f E.
    apply (derivable_pt_lim_ext (fct_cte c0 + mult_real_fct c1 id + mult_real_fct c2 (fun t => t ^ 2) +
              mult_real_fct c3 (fun t => t ^ 3) + mult_real_fct c4 (fun t => t ^ 4))%F).
    { intros t. rewrite E. unfold plus_fct, mult_real_fct, fct_cte, id. reflexivity. }
    replace (c1 + 2 * c2 * x + 3 * c3 * x ^ 2 + 4 * c4 * x ^ 3)
      with (0 + c1 * 1 + c2 * (INR 2 * x ^ Nat.pred 2) + c3 * (INR 3 * x ^ Nat.pred 3) + c4 * (INR 4 * x ^ Nat.pred 4))
      by (cbn; ring).
    repeat apply derivable_pt_lim_plus; try apply derivable_pt_lim_const; apply derivable_pt_lim_scal;
      try apply derivable_pt_lim_pow. apply derivable_pt_lim_id. }
  (* f_i(t) = e_i + t k l_i + (t k)^2 m_i *)
  set (e1 := 2 * (q1 * q3 - q0 * q2) - ax). set (e2 := 2 * (q0 * q1 + q2 * q3) - ay).
  set (e3 := 2 * (1 / 2 - q1 * q1 - q2 * q2) - az).
  set (l1 := 2 * (q1 * s3 + s1 * q3 - q0 * s2 - s0 * q2)). set (l2 := 2 * (q0 * s1 + s0 * q1 + q2 * s3 + s2 * q3)).
  set (l3 := - (4 * (q1 * s1 + q2 * s2))).
  set (m1 := 2 * (s1 * s3 - s0 * s2)). set (m2 := 2 * (s0 * s1 + s2 * s3)). set (m3 := - (2 * (s1 * s1 + s2 * s2))).
  assert (Lg : e1 * l1 + e2 * l2 + e3 * l3 = N * N).
  { rewrite NN. injection Est as <- <- <- <-. unfold e1, e2, e3, l1, l2, l3. field. }
  eapply eq_rect; [apply (D (1 / 2 * (e1 * e1 + e2 * e2 + e3 * e3)) (k * (e1 * l1 + e2 * l2 + e3 * l3))
     (1 / 2 * k * k * (l1 * l1 + l2 * l2 + l3 * l3 + 2 * (e1 * m1 + e2 * m2 + e3 * m3)))
     (k * k * k * (l1 * m1 + l2 * m2 + l3 * m3)) (1 / 2 * k * k * k * k * (m1 * m1 + m2 * m2 + m3 * m3)))|].
  - intros t. unfold objective, gravity_error, vdot, qadd, qscal. cbn [qw qx qy qz vx vy vz].
    replace (fun _ : R => 0) with (fun _ : R => 0) by reflexivity.
    assert (Kt : forall z, - (t * b) * (/ N * z) = t * k * z) by (intros; unfold k; ring).
    rewrite !Kt. unfold e1, e2, e3, l1, l2, l3, m1, m2, m3. field.
  - rewrite Lg. unfold k. field. lra.
Qed.

(** A coefficient beta that is not a number is accepted by the test of set_beta. *)
Theorem beta_nan_refuted : set_beta_accepts S754_nan = true.
Proof. reflexivity. Qed.
(** The other doubles are accepted exactly in [0, 1]. *)
Theorem beta_double b : fnan b = false ->
  (set_beta_accepts b = true <-> fleb f0 b = true /\ fleb b f1 = true).
Proof.
  intros Hb. unfold set_beta_accepts. rewrite !fltb_fleb by (reflexivity || assumption).
  destruct (fleb f0 b), (fleb b f1); cbn; intuition discriminate.
Qed.

(** Numbers outside [0, 1] are refused, numbers inside accepted. *)
Theorem beta_range s b : 0 <= b <= 1 -> ma_beta (set_beta s b) = b /\
  forall b', (b' < 0 \/ 1 < b') -> set_beta s b' = s.
Proof.
  intros Hb. unfold set_beta. split.
  - destruct (Rlt_dec b 0); [lra|]. destruct (Rlt_dec 1 b); [lra|]. reflexivity.
  - intros b' H. destruct (Rlt_dec b' 0); [reflexivity|]. destruct (Rlt_dec 1 b'); [reflexivity|]. lra.
Qed.

Example filter_example : Forall mcmd_ok [MInit (1 / 100); MBeta (1 / 2); MStep (V3 1 2 3) (V3 0 1 9); MStep v0 v0].
Proof. repeat constructor; cbn; lra. Qed.

Print Assumptions gyro_kinematics.
Print Assumptions corrective_gradient.
Print Assumptions error_is_vertical.
Print Assumptions update_unit_norm.
Print Assumptions output_unit_norm.
Print Assumptions update_defined.
Print Assumptions filter_unit_norm.
Print Assumptions null_quaternion_refuted.
Print Assumptions filter_fixed_point.
Print Assumptions filter_gyro_only.
Print Assumptions filter_descent.
Print Assumptions beta_nan_refuted.
Print Assumptions beta_range.
Print Assumptions beta_double.
Print Assumptions filter_before_init.
Print Assumptions filter_defaults.
