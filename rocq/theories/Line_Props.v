(** C97-C99: FeatureVector3, FeatureLineDistance, VisualPointProjecter. *)
From Coq Require Import String List Arith Lia ZArith Bool Reals Lra Psatz.
From Verif Require Import Base Geom_Model Geom_Facts Geom_Rot OpPoint_Model OpPoint_Props Rodr_Facts
  Rel_Facts Log6_Facts Point6d_Model Point6d_Props Pose_Props Line_Model.
Import ListNotations.
Local Open Scope R_scope.

Lemma as3_vlist v : as3 (vlist v) = Ok v.
Proof. now destruct v. Qed.
Lemma as3_ok l v : as3 l = Ok v -> l = vlist v.
Proof. destruct l as [|x [|y [|z [|]]]]; try discriminate. cbn. now intros [= <-]. Qed.
Lemma as3_bad l : length l <> 3%nat -> as3 l = UB.
Proof. destruct l as [|x [|y [|z [|]]]]; cbn; try reflexivity. congruence. Qed.
Lemma vec_skew_skew v : vec_skew v = skew v.
Proof. reflexivity. Qed.

(** The rate of a direction attached to a frame that moves with the robot. *)
Lemma direction_rate (M : R -> hom) t n v : body_velocity M t n ->
  vderiv (fun s => mapp (lin (M s)) v) t (mapp (lin (M t)) (cross (snd n) v)).
Proof.
  intros [_ Q]. eapply vderiv_eq; [reflexivity| |apply mderiv_mapp, Q].
  cbv beta. now rewrite mapp_mmul, skew_app.
Qed.

(** ** C97: FeatureVector3 *)
(** The error is the direction seen from the world minus the wanted one. *)
Theorem vector3_error M v vd :
  vec_error M (vlist v) (vlist vd) = Ok (vlist (vsub (mapp (lin M) v) vd)).
Proof. unfold vec_error. rewrite !as3_vlist. reflexivity. Qed.

(** The dimension announced is that of the error and the number of rows of the jacobian. *)
Theorem vector3_dimension M v vd Jq e J : vec_error M v vd = Ok e -> vec_jacobian M v Jq = Ok J ->
  length e = vec_dimension /\ length J = vec_dimension.
Proof.
  unfold vec_error, vec_jacobian. destruct (as3 v); cbn [bind]; try discriminate. destruct (as3 vd); cbn [bind]; try discriminate.
  intros [= <-] [= <-]. split; reflexivity.
Qed.

(** Vectors that do not have three coefficients are outside the contract of the
    matrix library. *)
Theorem vector3_sizes M v vd Jq : length v <> 3%nat \/ length vd <> 3%nat ->
  vec_error M v vd = UB /\ (length v <> 3%nat -> vec_jacobian M v Jq = UB).
Proof.
  intros H. split; [|intros L; unfold vec_jacobian; now rewrite as3_bad].
  unfold vec_error. destruct H as [H|H].
  - now rewrite as3_bad.
  - destruct (as3 v) eqn:E; cbn [bind]; [now rewrite as3_bad|..]; [|reflexivity].
    destruct v as [|x [|y [|z [|]]]]; discriminate E.
Qed.

(** The error can vanish only if the two vectors have the same length. *)
Theorem vector3_zero M v vd : is_rigid M ->
  vec_error M (vlist v) (vlist vd) = Ok [0; 0; 0] <-> mapp (lin M) v = vd.
Proof.
  intros HM. rewrite vector3_error. split.
  - intros E. assert (E' : vlist (vsub (mapp (lin M) v) vd) = [0; 0; 0]) by congruence.
    pose proof (f_equal (fun l => nth 0 l 0) E') as X. pose proof (f_equal (fun l => nth 1 l 0) E') as Y.
    pose proof (f_equal (fun l => nth 2 l 0) E') as Z. cbn [vlist nth vsub vx vy vz] in X, Y, Z.
    apply vec3_ext; lra.
  - intros ->. f_equal. unfold vlist, vsub. cbn [vx vy vz].
    repeat (apply f_equal2; [ring|]). reflexivity.
Qed.
Theorem vector3_norm M v vd : is_rigid M ->
  vec_error M (vlist v) (vlist vd) = Ok [0; 0; 0] -> vnorm vd = vnorm v.
Proof.
  intros HM E. apply vector3_zero in E; [|exact HM]. subst vd. unfold vnorm. f_equal.
  rewrite <- vdot_mT, <- mapp_mmul, (rot_mT_l _ HM), mapp_id. reflexivity.
Qed.

Lemma vec_rows_vel M v Jq qd :
  exists J, vec_jacobian M (vlist v) Jq = Ok J /\ length J = 3%nat /\
  forall k, (k < 3)%nat -> dotR (nth k J []) qd = v3at (mapp (lin M) (cross (snd (jvel Jq qd)) v)) k.
Proof.
  unfold vec_jacobian. rewrite as3_vlist. cbn [bind]. eexists. split; [reflexivity|]. split; [reflexivity|].
  assert (C : forall w, mapp (lin M) (cross w v) = vopp (mapp (mmul (lin M) (vec_skew v)) w)).
  { intros w. rewrite mapp_mmul, vec_skew_skew, skew_app, <- mapp_vopp. f_equal.
    destruct w, v. unfold cross, vopp. gcbn. f_equal; ring. }
  rewrite C. set (S := mmul (lin M) (vec_skew v)). clearbody S. clear C.
  assert (D : forall (f : vec3 -> R), (forall k c d, f (vadd (vscal k c) d) = k * f c + f d) -> f v0 = 0 ->
    forall j q, dotR (map (fun c : vec3 * vec3 => f (snd c)) j) q = f (snd (jvel j q))).
  { intros f Hf H0. induction j as [|c j IH]; intros [|x q]; cbn [map dotR jvel fst snd]; try (now rewrite H0).
    rewrite Hf, IH. ring. }
  intros k Hk. destruct k as [|[|[|k]]]; [..|lia]; cbn [nth].
  - rewrite (D (fun w => 0 - m00 S * vx w - m01 S * vy w - m02 S * vz w)).
    + unfold v3at, vopp, mapp. cbn [vx vy vz]. ring.
    + intros x c d. unfold vadd, vscal. cbn [vx vy vz]. ring.
    + unfold v0. cbn [vx vy vz]. ring.
  - rewrite (D (fun w => 0 - m10 S * vx w - m11 S * vy w - m12 S * vz w)).
    + unfold v3at, vopp, mapp. cbn [vx vy vz]. ring.
    + intros x c d. unfold vadd, vscal. cbn [vx vy vz]. ring.
    + unfold v0. cbn [vx vy vz]. ring.
  - rewrite (D (fun w => 0 - m20 S * vx w - m21 S * vy w - m22 S * vz w)).
    + unfold v3at, vopp, mapp. cbn [vx vy vz]. ring.
    + intros x c d. unfold vadd, vscal. cbn [vx vy vz]. ring.
    + unfold v0. cbn [vx vy vz]. ring.
Qed.

(** Any motion of the robot and of the wanted direction: each component of the
    error changes at the rate given by the jacobian, less the rate of the
    wanted direction. *)
Theorem vector3_rate (M : R -> hom) (vd : R -> vec3) v t Jq qd dvd k :
  body_velocity M t (jvel Jq qd) -> vderiv vd t dvd -> (k < 3)%nat ->
  derivable_pt_lim (fun s => nth k (vals (vec_error (M s) (vlist v) (vlist (vd s)))) 0) t
    (dotR (nth k (vals (vec_jacobian (M t) (vlist v) Jq)) []) qd - v3at dvd k).
Proof.
  intros VM VD Hk. destruct (vec_rows_vel (M t) v Jq qd) as (J & -> & _ & EJ). cbn [vals]. rewrite EJ by exact Hk.
  eapply deriv_eq; [| |exact (v3at_deriv _ t _ k (vderiv_sub _ _ t _ _ (direction_rate M t _ v VM) VD))].
  - intros s. cbv beta. rewrite vector3_error. cbn [vals].
    destruct k as [|[|[|k]]]; [reflexivity..|lia].
  - destruct k as [|[|k]]; reflexivity.
Qed.

Lemma dot3 a b : dotR (vlist a) (vlist b) = vdot a b.
Proof. destruct a, b. unfold vdot. cbn. ring. Qed.

(** Still wanted direction: the squared error changes at twice the product of
    the error and of what the jacobian gives, so a joint velocity that does not
    push along the error never increases it. *)
Theorem vector3_descent (M : R -> hom) v vd (Jq : R -> jac) qd T :
  let e s := vals (vec_error (M s) (vlist v) (vlist vd)) in
  let Jqd s := map (fun row => dotR row (qd s)) (vals (vec_jacobian (M s) (vlist v) (Jq s))) in
  (forall s, 0 <= s <= T -> body_velocity M s (jvel (Jq s) (qd s))) ->
  (forall s, 0 <= s <= T -> derivable_pt_lim (fun u => dotR (e u) (e u)) s (2 * dotR (e s) (Jqd s))) /\
  ((forall s, 0 <= s <= T -> dotR (e s) (Jqd s) <= 0) ->
   forall s u, 0 <= s <= u -> u <= T -> dotR (e u) (e u) <= dotR (e s) (e s)).
Proof.
  intros e Jqd VM.
  assert (D : forall s, 0 <= s <= T -> derivable_pt_lim (fun u => dotR (e u) (e u)) s (2 * dotR (e s) (Jqd s))).
  { intros s Hs. specialize (VM s Hs).
    pose proof (direction_rate M s _ v VM) as DR.
    pose proof (vderiv_sub _ _ s _ _ DR (vderiv_const vd s)) as DE.
    set (dd := mapp (lin (M s)) (cross (snd (jvel (Jq s) (qd s))) v)) in *.
    assert (EJ : Jqd s = vlist dd).
    { unfold Jqd. destruct (vec_rows_vel (M s) v (Jq s) (qd s)) as (J & E & L & V). rewrite E. cbn [vals].
      destruct J as [|a [|b [|c [|]]]]; try discriminate L. cbn [map].
      pose proof (V 0%nat ltac:(lia)) as X. pose proof (V 1%nat ltac:(lia)) as Y. pose proof (V 2%nat ltac:(lia)) as Z.
      fold dd in X, Y, Z. cbn [nth v3at] in X, Y, Z. rewrite X, Y, Z. reflexivity. }
    rewrite EJ. unfold e. rewrite vector3_error. cbn [vals]. rewrite dot3.
    eapply deriv_eq; [| |exact (deriv_vdot _ _ s _ _ DE DE)].
    - intros u. cbv beta. rewrite vector3_error. cbn [vals]. now rewrite dot3.
    - cbv beta. generalize (vsub (mapp (lin (M s)) v) vd). clearbody dd. intros [a b c]. destruct dd as [d f g].
      unfold vdot, vsub, v0. cbn [vx vy vz]. ring. }
  split; [exact D|]. intros Hneg s u [Hs Hsu] Hu.
  destruct (Rle_lt_or_eq_dec _ _ Hsu) as [L|<-]; [|lra].
  destruct (MVT_cor2 (fun x => dotR (e x) (e x)) (fun x => 2 * dotR (e x) (Jqd x)) s u L) as (c & Ec & Hc).
  { intros c Hc. apply D. lra. }
  cbv beta in Ec. pose proof (Hneg c ltac:(lra)) as P. nra.
Qed.

Lemma vector3_decrease (M : R -> hom) v vd (Jq : R -> jac) qd lam T : 0 <= T ->
  let e s := vals (vec_error (M s) (vlist v) (vlist vd)) in
  (forall s, 0 <= s <= T -> body_velocity M s (jvel (Jq s) (qd s)) /\
     map (fun row => dotR row (qd s)) (vals (vec_jacobian (M s) (vlist v) (Jq s))) = map (Rmult (- lam)) (e s)) ->
  forall s, 0 <= s <= T -> e s = map (Rmult (exp (- lam * s))) (e 0).
Proof.
  intros HT e HE s Hs.
  assert (C : forall k, (k < 3)%nat -> nth k (e s) 0 = exp (- lam * s) * nth k (e 0) 0).
  { intros k Hk. apply (exp_decrease (fun s => nth k (e s) 0) lam T HT); [|exact Hs].
    intros u Hu. destruct (HE u Hu) as [VM Q].
    pose proof (vector3_rate M (fun _ => vd) v u (Jq u) (qd u) v0 k VM (vderiv_const vd u) Hk) as P.
    replace (v3at v0 k) with 0 in P by (destruct k as [|[|k]]; reflexivity). rewrite Rminus_0_r in P.
    fold (e u) in P. eapply deriv_eq; [reflexivity| |exact P].
    destruct (vec_rows_vel (M u) v (Jq u) (qd u)) as (J & EJ & L & _). rewrite EJ in Q |- *. cbn [vals] in Q |- *.
    pose proof (f_equal (fun l => nth k l 0) Q) as Q'. cbv beta in Q'.
    rewrite (nth_indep _ 0 (dotR [] (qd u))) in Q' by (rewrite map_length; lia).
    rewrite (map_nth (fun row => dotR row (qd u))) in Q'. rewrite Q'.
    rewrite (nth_indep _ 0 (- lam * 0)); [apply (map_nth (Rmult (- lam)))|].
    unfold e. rewrite vector3_error. cbn. lia. }
  unfold e in C |- *. rewrite !vector3_error in C |- *. cbn [vals vlist map] in C |- *.
  pose proof (C 0%nat ltac:(lia)) as X. pose proof (C 1%nat ltac:(lia)) as Y. pose proof (C 2%nat ltac:(lia)) as Z.
  exact (f_equal2 cons X (f_equal2 cons Y (f_equal2 cons Z eq_refl))).
Qed.

(** A gain cannot be imposed on the three components: unless the error is zero
    no motion makes the jacobian give minus the gain times the error (the end of
    the vector stays on a sphere). *)
Theorem vector3_gain_refuted (M : R -> hom) v vd (Jq : R -> jac) qd lam T : 0 < T -> lam <> 0 ->
  (forall s, is_rigid (M s)) ->
  let e s := vals (vec_error (M s) (vlist v) (vlist vd)) in
  (forall s, 0 <= s <= T -> body_velocity M s (jvel (Jq s) (qd s)) /\
     map (fun row => dotR row (qd s)) (vals (vec_jacobian (M s) (vlist v) (Jq s))) = map (Rmult (- lam)) (e s)) ->
  forall s, 0 <= s <= T -> e s = [0; 0; 0].
Proof.
  intros HT HL HM e HE.
  set (E := fun s => vsub (mapp (lin (M s)) v) vd).
  assert (Ee : forall s, e s = vlist (E s)) by (intros s; unfold e; rewrite vector3_error; reflexivity).
  assert (O : forall s, 0 <= s <= T -> vdot (E s) (E s) + vdot (E s) vd = 0).
  { intros s Hs. destruct (HE s Hs) as [VM Q].
    destruct (vec_rows_vel (M s) v (Jq s) (qd s)) as (J & EJ & L & V). rewrite EJ, Ee in Q. cbn [vals] in Q.
    set (w := snd (jvel (Jq s) (qd s))) in *. set (dd := mapp (lin (M s)) (cross w v)) in *.
    destruct J as [|a [|b [|c [|]]]]; try discriminate L. cbn [map vlist] in Q.
    pose proof (V 0%nat ltac:(lia)) as X. pose proof (V 1%nat ltac:(lia)) as Y. pose proof (V 2%nat ltac:(lia)) as Z.
    cbn [nth v3at] in X, Y, Z.
    pose proof (f_equal (fun l => nth 0 l 0) Q) as QX. pose proof (f_equal (fun l => nth 1 l 0) Q) as QY.
    pose proof (f_equal (fun l => nth 2 l 0) Q) as QZ. cbn [nth] in QX, QY, QZ. rewrite X in QX. rewrite Y in QY. rewrite Z in QZ.
    assert (P : vdot dd (mapp (lin (M s)) v) = 0).
    { unfold dd. rewrite <- vdot_mT, <- mapp_mmul, (rot_mT_l _ (HM s)), mapp_id.
      destruct w, v. unfold vdot, cross. gcbn. ring. }
    assert (R : mapp (lin (M s)) v = vadd (E s) vd).
    { unfold E. apply vec3_ext; unfold vadd, vsub; gcbn; ring. }
    rewrite R in P. unfold vdot in P. rewrite QX, QY, QZ in P. unfold vadd in P. cbn [vx vy vz] in P.
    apply (Rmult_eq_reg_l (- lam)); [|lra]. unfold vdot. lra. }
  pose proof (vector3_decrease M v vd Jq qd lam T ltac:(lra) HE) as D. cbv zeta in D. fold e in D.
  assert (DE : forall s, 0 <= s <= T -> E s = vscal (exp (- lam * s)) (E 0)).
  { intros s Hs. specialize (D s Hs). change (vals (vec_error (M s) (vlist v) (vlist vd))) with (e s) in D.
    change (vals (vec_error (M 0) (vlist v) (vlist vd))) with (e 0) in D. rewrite !Ee in D.
    apply vec3_ext; [exact (f_equal (fun l => nth 0 l 0) D)|exact (f_equal (fun l => nth 1 l 0) D)|exact (f_equal (fun l => nth 2 l 0) D)]. }
  assert (Z0 : E 0 = v0).
  { pose proof (O 0 ltac:(lra)) as O0. pose proof (O T ltac:(lra)) as OT. rewrite (DE T) in OT by lra.
    set (k := exp (- lam * T)) in *.
    assert (Hk : 0 < k) by apply exp_pos.
    assert (Hk1 : k <> 1).
    { unfold k. intros X. rewrite <- exp_0 in X. apply exp_inv in X. apply HL. nra. }
    rewrite vdot_vscal, !vdot_vscal_l in OT.
    assert (W : k * (k - 1) * vdot (E 0) (E 0) = 0).
    { replace (vdot (E 0) vd) with (- vdot (E 0) (E 0)) in OT by lra. lra. }
    assert (W' : vdot (E 0) (E 0) = 0).
    { apply Rmult_integral in W. destruct W as [W|W]; [|exact W]. apply Rmult_integral in W. destruct W; [lra|]. elim Hk1. lra. }
    apply vnorm_zero. unfold vnorm. rewrite W'. apply sqrt_0. }
  intros s Hs. rewrite Ee, (DE s Hs), Z0. unfold vscal, vlist, v0. cbn [vx vy vz].
  rewrite Rmult_0_r. reflexivity.
Qed.

(** ** C98: FeatureLineDistance *)
(** Specification: a point of a line; two lines are not parallel when the cross
    product of their directions is not zero. *)
Definition on_line (l : line) (s : R) : vec3 := vadd (fst l) (vscal s (snd l)).
Definition normal (l r : line) : vec3 := cross (snd l) (snd r).

Lemma K_normal l r : line_K l r = vdot (normal l r) (normal l r).
Proof. destruct l as [[x0 y0 z0] [a0 b0 c0]], r as [[x1 y1 z1] [a1 b1 c1]]. unfold line_K, normal, vdot, cross. gcbn. cbn [fst snd vx vy vz]. ring. Qed.
Lemma N_normal l r : line_N l r = - vdot (vsub (fst l) (fst r)) (normal l r).
Proof. destruct l as [[x0 y0 z0] [a0 b0 c0]], r as [[x1 y1 z1] [a1 b1 c1]]. unfold line_N, normal, vdot, vsub, cross. cbn [fst snd vx vy vz]. ring. Qed.

Lemma ref_ok r : line_ref (vlist (fst r) ++ vlist (snd r)) = Ok r.
Proof. destruct r as [[? ? ?] [? ? ?]]. reflexivity. Qed.
Lemma line_error_val M v r :
  line_error M (vlist v) (vlist (fst r) ++ vlist (snd r))
  = Ok [line_N (trn M, mapp (lin M) v) r / line_K (trn M, mapp (lin M) v) r].
Proof. unfold line_error, line_coords. rewrite as3_vlist, ref_ok. reflexivity. Qed.

Lemma normal_pos l r : normal l r <> v0 -> 0 < vdot (normal l r) (normal l r).
Proof.
  intros Hn. destruct (normal l r) as [a b c]. unfold vdot. cbn [vx vy vz].
  destruct (Req_dec a 0) as [->|Ha]; [|nra]. destruct (Req_dec b 0) as [->|Hb]; [|nra].
  destruct (Req_dec c 0) as [->|Hc]; [|nra]. elim Hn. reflexivity.
Qed.

Lemma gap_normal l r s t : vdot (vsub (on_line l s) (on_line r t)) (normal l r) = vdot (vsub (fst l) (fst r)) (normal l r).
Proof. destruct l as [[x0 y0 z0] [a0 b0 c0]], r as [[x1 y1 z1] [a1 b1 c1]]. unfold on_line, normal, vdot, vsub, vadd, vscal, cross. cbn [fst snd vx vy vz]. ring. Qed.

Lemma cauchy a b : vdot a b * vdot a b <= vdot a a * vdot b b.
Proof.
  destruct a as [a1 a2 a3], b as [b1 b2 b3]. unfold vdot. cbn [vx vy vz].
  assert (E : (a1 * a1 + a2 * a2 + a3 * a3) * (b1 * b1 + b2 * b2 + b3 * b3) - (a1 * b1 + a2 * b2 + a3 * b3) * (a1 * b1 + a2 * b2 + a3 * b3)
   = (a1 * b2 - a2 * b1) * (a1 * b2 - a2 * b1) + (a1 * b3 - a3 * b1) * (a1 * b3 - a3 * b1) + (a2 * b3 - a3 * b2) * (a2 * b3 - a3 * b2)) by ring.
  pose proof (Rle_0_sqr (a1 * b2 - a2 * b1)). pose proof (Rle_0_sqr (a1 * b3 - a3 * b1)). pose proof (Rle_0_sqr (a2 * b3 - a3 * b2)).
  unfold Rsqr in *. lra.
Qed.

(** The feet of the common perpendicular. *)
Lemma feet l r : normal l r <> v0 -> exists s t,
  vsub (on_line l s) (on_line r t)
  = vscal (vdot (vsub (fst l) (fst r)) (normal l r) / vdot (normal l r) (normal l r)) (normal l r).
Proof.
  intros Hn. pose proof (normal_pos _ _ Hn) as HK. set (n := normal l r) in *.
  set (w := vsub (fst l) (fst r)).
  exists (- vdot (cross w (snd r)) n / vdot n n), (- vdot (cross w (snd l)) n / vdot n n).
  assert (E : vscal (vdot n n) w = vadd (vscal (vdot w n) n)
     (vsub (vscal (vdot (cross w (snd r)) n) (snd l)) (vscal (vdot (cross w (snd l)) n) (snd r)))).
  { unfold n, normal. destruct w as [x y z], (snd l) as [a b c], (snd r) as [d e f].
    unfold vscal, vadd, vsub, vdot, cross. cbn [vx vy vz]. f_equal; ring. }
  set (K := vdot n n) in *. set (A := vdot (cross w (snd r)) n) in *. set (B := vdot (cross w (snd l)) n) in *.
  set (D := vdot w n) in *. clearbody K A B D.
  pose proof (f_equal vx E) as Ex. pose proof (f_equal vy E) as Ey. pose proof (f_equal vz E) as Ez.
  unfold w in Ex, Ey, Ez. clear E w.
  destruct l as [[x0 y0 z0] [a0 b0 c0]], r as [[x1 y1 z1] [a1 b1 c1]]. cbn [fst snd] in *. destruct n as [n1 n2 n3].
  unfold on_line, vscal, vadd, vsub in *. cbn [fst snd vx vy vz] in *.
  f_equal; apply (Rmult_eq_reg_l K); try lra.
  - replace (K * (x0 + - A / K * a0 - (x1 + - B / K * a1))) with (K * (x0 - x1) - A * a0 + B * a1) by (field; lra).
    replace (K * (D / K * n1)) with (D * n1) by (field; lra). lra.
  - replace (K * (y0 + - A / K * b0 - (y1 + - B / K * b1))) with (K * (y0 - y1) - A * b0 + B * b1) by (field; lra).
    replace (K * (D / K * n2)) with (D * n2) by (field; lra). lra.
  - replace (K * (z0 + - A / K * c0 - (z1 + - B / K * c1))) with (K * (z0 - z1) - A * c0 + B * c1) by (field; lra).
    replace (K * (D / K * n3)) with (D * n3) by (field; lra). lra.
Qed.

(** Lines that are not parallel: the error times the length of the cross
    product of the directions is, up to its sign, the distance of the lines:
    no two points are closer, and two points are at that distance. *)
Theorem line_error_distance M v r :
  let l := (trn M, mapp (lin M) v) in
  normal l r <> v0 ->
  exists e, line_error M (vlist v) (vlist (fst r) ++ vlist (snd r)) = Ok [e] /\
  (forall s t, Rabs e * vnorm (normal l r) <= vnorm (vsub (on_line l s) (on_line r t))) /\
  (exists s t, vnorm (vsub (on_line l s) (on_line r t)) = Rabs e * vnorm (normal l r)).
Proof.
  intros l Hn. rewrite line_error_val. fold l. eexists. split; [reflexivity|].
  rewrite N_normal, K_normal. pose proof (normal_pos _ _ Hn) as HK.
  set (n := normal l r) in *. set (D := vdot (vsub (fst l) (fst r)) n).
  assert (EA : Rabs (- D / vdot n n) * vnorm n = Rabs D / vnorm n).
  { unfold Rdiv. rewrite Rabs_mult, Rabs_Ropp, (Rabs_pos_eq (/ vdot n n)) by (left; now apply Rinv_0_lt_compat).
    assert (Hs : 0 < vnorm n) by (apply sqrt_lt_R0, HK). rewrite (vdot_norm n). field. lra. }
  split.
  - intros s t. rewrite EA. assert (Hs : 0 < vnorm n) by (apply sqrt_lt_R0, HK).
    apply (Rmult_le_reg_r (vnorm n)); [exact Hs|].
    replace (Rabs D / vnorm n * vnorm n) with (Rabs D) by (field; lra).
    unfold D, n. rewrite <- (gap_normal l r s t). fold n. set (x := vsub (on_line l s) (on_line r t)).
    rewrite <- sqrt_Rsqr_abs. unfold vnorm. rewrite <- sqrt_mult_alt by (unfold vdot; nra). apply sqrt_le_1_alt. apply cauchy.
  - destruct (feet l r Hn) as (s & t & E). exists s, t. fold n in E. rewrite E. fold D.
    unfold vnorm at 1. rewrite vdot_vscal, vdot_vscal_l, <- Rmult_assoc, sqrt_mult_alt by apply Rle_0_sqr.
    change (sqrt (vdot n n)) with (vnorm n). f_equal.
    change (D / vdot n n * (D / vdot n n)) with (Rsqr (D / vdot n n)). rewrite sqrt_Rsqr_abs.
    unfold Rdiv. rewrite !Rabs_mult, Rabs_Ropp. reflexivity.
Qed.

(** The error is zero exactly when the lines meet. *)
Theorem line_error_zero M v r :
  let l := (trn M, mapp (lin M) v) in
  normal l r <> v0 ->
  line_error M (vlist v) (vlist (fst r) ++ vlist (snd r)) = Ok [0] <->
  exists s t, on_line l s = on_line r t.
Proof.
  intros l Hn. destruct (line_error_distance M v r Hn) as (e & E & LB & (s & t & EQ)). fold l in LB, EQ. rewrite E.
  assert (Hs : 0 < vnorm (normal l r)) by (apply sqrt_lt_R0, normal_pos, Hn).
  split.
  - intros Z. assert (e = 0) by congruence. subst e. rewrite Rabs_R0, Rmult_0_l in EQ. exists s, t.
    apply vnorm_zero in EQ. pose proof (f_equal vx EQ) as X. pose proof (f_equal vy EQ) as Y. pose proof (f_equal vz EQ) as Z'.
    unfold vsub, v0 in X, Y, Z'. cbn [vx vy vz] in X, Y, Z'. apply vec3_ext; lra.
  - intros (s' & t' & Q). specialize (LB s' t'). rewrite Q in LB.
    assert (Z : vnorm (vsub (on_line r t') (on_line r t')) = 0).
    { unfold vnorm. replace (vdot _ _) with 0; [apply sqrt_0|]. destruct (on_line r t') as [x y z]. unfold vdot, vsub. cbn [vx vy vz]. ring. }
    rewrite Z in LB. pose proof (Rabs_pos e) as P. assert (Rabs e = 0) by nra.
    destruct (Req_dec e 0) as [->|Ne]; [reflexivity|]. apply Rabs_no_R0 in Ne. contradiction.
Qed.

(** The error is not the distance, even with unit directions: two lines one
    metre apart give 5/4. *)
Theorem line_distance_refuted :
  exists M v r, is_rigid M /\
  let l := (trn M, mapp (lin M) v) in
  vnorm (snd l) = 1 /\ vnorm (snd r) = 1 /\ normal l r <> v0 /\
  (forall s t, 1 <= vnorm (vsub (on_line l s) (on_line r t))) /\
  (exists s t, vnorm (vsub (on_line l s) (on_line r t)) = 1) /\
  line_error M (vlist v) (vlist (fst r) ++ vlist (snd r)) = Ok [- (5 / 4)].
Proof.
  set (r := (v0, V3 (3 / 5) (4 / 5) 0)). exists (H mid unitZ), unitX, r.
  split; [exact rot_id|]. intros l.
  assert (El : l = (unitZ, unitX)) by (unfold l; cbn [trn lin]; now rewrite mapp_id).
  assert (N1 : vnorm unitX = 1) by (unfold vnorm; rewrite unitX_unit; apply sqrt_1).
  assert (N2 : vnorm (snd r) = 1).
  { unfold vnorm, r. cbn [snd]. unfold vdot. cbn [vx vy vz]. replace (_ + _) with 1 by field. apply sqrt_1. }
  assert (En : normal l r = V3 0 0 (4 / 5)).
  { rewrite El. unfold normal, r, cross, unitX, unitZ. cbn [fst snd vx vy vz]. f_equal; field. }
  assert (Hn : normal l r <> v0).
  { rewrite En. intros E. pose proof (f_equal vz E) as Z. cbn in Z. lra. }
  assert (EE : line_error (H mid unitZ) (vlist unitX) (vlist (fst r) ++ vlist (snd r)) = Ok [- (5 / 4)]).
  { rewrite line_error_val. change (trn (H mid unitZ), mapp (lin (H mid unitZ)) unitX) with l. rewrite El.
    unfold line_N, line_K, r, unitX, unitZ, v0. cbn [fst snd vx vy vz]. repeat f_equal. field. }
  assert (NN : Rabs (- (5 / 4)) * vnorm (normal l r) = 1).
  { rewrite En, Rabs_Ropp, Rabs_pos_eq by lra. unfold vnorm, vdot. cbn [vx vy vz].
    replace (0 * 0 + 0 * 0 + 4 / 5 * (4 / 5)) with (Rsqr (4 / 5)) by (unfold Rsqr; ring). rewrite sqrt_Rsqr by lra. field. }
  destruct (line_error_distance (H mid unitZ) unitX r Hn) as (e & E & LB & (s & t & EQ)).
  rewrite EE in E. assert (e = - (5 / 4)) by congruence. subst e.
  split; [now rewrite El|]. split; [exact N2|]. split; [exact Hn|]. split.
  { intros s' t'. rewrite <- NN. apply LB. }
  split; [|exact EE]. exists s, t. rewrite <- NN. exact EQ.
Qed.

(** Inputs of other sizes. *)
Theorem line_sizes M vect posRef Jq : length vect <> 3%nat \/ (length posRef < 6)%nat ->
  line_error M vect posRef = UB /\ line_jacobian M vect posRef Jq = UB.
Proof.
  intros [L|L].
  - unfold line_error, line_jacobian, line_coords. rewrite !as3_bad by exact L. split; reflexivity.
  - assert (B : line_ref posRef = UB).
    { destruct posRef as [|? [|? [|? [|? [|? [|? ?]]]]]]; try reflexivity. cbn in L. lia. }
    unfold line_error, line_jacobian, line_coords.
    destruct (as3 vect) as [v|e|] eqn:E; cbn [bind]; [rewrite B; split; reflexivity| |split; reflexivity].
    destruct vect as [|x [|y [|z [|]]]]; discriminate E.
Qed.

(** The jacobian.  [signed]: the error as a function of the two lines. *)
Definition signed (l r : line) : R :=
  - vdot (vsub (fst l) (fst r)) (normal l r) / vdot (normal l r) (normal l r).
Definition up (l : line) (c : R) : line := (fst l, V3 (vx (snd l)) (vy (snd l)) c).

(** Partial derivatives of the numerator and of the denominator along a change
    of the direction of the first line. *)
Definition dN (l r : line) (d : vec3) : R := - vdot (vsub (fst l) (fst r)) (cross d (snd r)).
Definition dK (l r : line) (d : vec3) : R := 2 * vdot (normal l r) (cross d (snd r)).

Lemma diffa_ok l r : line_diffa0 l r = dN l r unitX * line_K l r - line_N l r * dK l r unitX.
Proof.
  destruct l as [[x0 y0 z0] [a0 b0 c0]], r as [[x1 y1 z1] [a1 b1 c1]].
  unfold line_diffa0, dN, dK, line_K, line_N, normal, vdot, vsub, cross, unitX. cbn [fst snd vx vy vz]. ring.
Qed.
Lemma diffb_ok l r : line_diffb0 l r = dN l r unitY * line_K l r - line_N l r * dK l r unitY.
Proof.
  destruct l as [[x0 y0 z0] [a0 b0 c0]], r as [[x1 y1 z1] [a1 b1 c1]].
  unfold line_diffb0, dN, dK, line_K, line_N, normal, vdot, vsub, cross, unitY. cbn [fst snd vx vy vz]. ring.
Qed.

Lemma line_J_dot M v r Jq qd : exists J,
  line_jacobian M (vlist v) (vlist (fst r) ++ vlist (snd r)) Jq = Ok J /\
  dotR J qd = let d := line_diffh (trn M, mapp (lin M) v) r in
    vdot (fst d) (mapp (lin M) (fst (jvel Jq qd)))
    + vdot (snd d) (mapp (lin M) (cross (snd (jvel Jq qd)) v)).
Proof.
  unfold line_jacobian, line_coords. rewrite as3_vlist, ref_ok. cbn [bind]. eexists. split; [reflexivity|].
  cbv zeta. set (d := line_diffh _ r). clearbody d.
  assert (C : forall w, mapp (lin M) (cross w v) = mapp (mopp (mmul (lin M) (vec_skew v))) w).
  { intros w. rewrite mapp_mopp, mapp_mmul, vec_skew_skew, skew_app, <- mapp_vopp. f_equal.
    destruct w, v. unfold cross, vopp. gcbn. f_equal; ring. }
  rewrite C. unfold line_Jcol. cbn [fst snd]. set (S := mopp (mmul (lin M) (vec_skew v))). clearbody S. clear C.
  revert qd. induction Jq as [|c j IH]; intros [|x q]; cbn [map dotR jvel fst snd];
    rewrite ?mapp_v0, ?mapp_vadd, ?mapp_vscal, ?IH, ?vdot_vadd, ?vdot_vscal; unfold vdot, v0; cbn [vx vy vz]; ring.
Qed.

Lemma deriv_quot (f g : R -> R) t df dg : g t <> 0 ->
  derivable_pt_lim f t df -> derivable_pt_lim g t dg ->
  derivable_pt_lim (fun s => f s / g s) t ((df * g t - dg * f t) / Rsqr (g t)).
Proof. intros G F D. exact (derivable_pt_lim_div f g t df dg F D G). Qed.

Lemma NK_deriv (L : R -> line) r t dp dd :
  vderiv (fun s => fst (L s)) t dp -> vderiv (fun s => snd (L s)) t dd ->
  derivable_pt_lim (fun s => line_N (L s) r) t (- vdot dp (normal (L t) r) + dN (L t) r dd) /\
  derivable_pt_lim (fun s => line_K (L s) r) t (dK (L t) r dd).
Proof.
  intros P Q.
  assert (C : vderiv (fun s => normal (L s) r) t (cross dd (snd r))).
  { eapply vderiv_eq; [reflexivity| |exact (vderiv_cross _ _ t _ _ Q (vderiv_const (snd r) t))].
    cbv beta. generalize (snd (L t)) (snd r). intros [a b c] [d e f]. destruct dd. unfold vadd, cross, v0. gcbn. f_equal; ring. }
  split.
  - eapply deriv_eq; [intros s; symmetry; apply N_normal| |].
    2: { apply (derivable_pt_lim_opp (fun s => vdot (vsub (fst (L s)) (fst r)) (normal (L s) r))).
         apply deriv_vdot; [|exact C]. apply vderiv_sub; [exact P|apply vderiv_const]. }
    cbv beta. unfold dN. generalize (normal (L t) r) (vsub (fst (L t)) (fst r)) (cross dd (snd r)). intros [a b c] [d e f] [g h i].
    destruct dp as [j k m]. unfold vdot, vsub, v0. cbn [vx vy vz]. ring.
  - eapply deriv_eq; [intros s; symmetry; apply K_normal| |apply deriv_vdot; exact C].
    cbv beta. unfold dK. generalize (normal (L t) r) (cross dd (snd r)). intros [a b c] [d e f]. unfold vdot. cbn [vx vy vz]. ring.
Qed.

Lemma dN_lin l r d : dN l r d = vx d * dN l r unitX + vy d * dN l r unitY + vz d * dN l r unitZ.
Proof. unfold dN. generalize (vsub (fst l) (fst r)) (snd r). intros [a b c] [e f g]. destruct d as [i j k]. unfold vdot, cross, unitX, unitY, unitZ. cbn [vx vy vz]. ring. Qed.
Lemma dK_lin l r d : dK l r d = vx d * dK l r unitX + vy d * dK l r unitY + vz d * dK l r unitZ.
Proof. unfold dK. generalize (normal l r) (snd r). intros [a b c] [e f g]. destruct d as [i j k]. unfold vdot, cross, unitX, unitY, unitZ. cbn [vx vy vz]. ring. Qed.

(** The robot moves, the reference line is still, the lines are not parallel:
    the rate of the error is what the jacobian gives plus a missing term, the
    effect of the third coordinate of the direction. *)
Theorem line_rate_missing (M : R -> hom) v r t Jq qd :
  let l s := (trn (M s), mapp (lin (M s)) v) in
  body_velocity M t (jvel Jq qd) -> normal (l t) r <> v0 ->
  let posRef := vlist (fst r) ++ vlist (snd r) in
  exists m, derivable_pt_lim (fun c => signed (up (l t) c) r) (vz (snd (l t))) m /\
  derivable_pt_lim (fun s => nth 0 (vals (line_error (M s) (vlist v) posRef)) 0) t
    (dotR (vals (line_jacobian (M t) (vlist v) posRef Jq)) qd
     + m * vz (mapp (lin (M t)) (cross (snd (jvel Jq qd)) v))).
Proof.
  intros l VM Hn posRef. pose proof (normal_pos _ _ Hn) as HK. rewrite <- K_normal in HK.
  set (K := line_K (l t) r) in *. set (N := line_N (l t) r).
  exists ((dN (l t) r unitZ * K - dK (l t) r unitZ * N) / Rsqr K). split.
  - destruct (NK_deriv (fun c => up (l t) c) r (vz (snd (l t))) v0 unitZ) as [DN DK].
    { exact (vderiv_const (fst (l t)) _). }
    { unfold vderiv, up, unitZ. cbn [fst snd vx vy vz]. split; [apply derivable_pt_lim_const|].
      split; [apply derivable_pt_lim_const|apply derivable_pt_lim_id]. }
    assert (EU : up (l t) (vz (snd (l t))) = l t).
    { unfold up. destruct (l t) as [p [x y z]]. reflexivity. }
    rewrite EU in DN, DK.
    assert (KZ : line_K (up (l t) (vz (snd (l t)))) r <> 0) by (rewrite EU; fold K; lra).
    eapply deriv_eq; [| |exact (deriv_quot _ _ _ _ _ KZ DN DK)].
    + intros c. cbv beta. unfold signed. now rewrite N_normal, K_normal.
    + cbv beta. rewrite EU. fold K N. f_equal. f_equal. f_equal. generalize (normal (l t) r). intros [a b c]. unfold vdot, v0. cbn [vx vy vz]. ring.
  - destruct (line_J_dot (M t) v r Jq qd) as (J & EJ & ED). fold posRef in EJ. rewrite EJ. cbn [vals]. rewrite ED. clear EJ ED.
    set (n := jvel Jq qd) in *.
    destruct (NK_deriv l r t (mapp (lin (M t)) (fst n)) (mapp (lin (M t)) (cross (snd n) v))) as [DN DK].
    { exact (proj1 VM). }
    { exact (direction_rate M t n v VM). }
    assert (KZ : line_K (l t) r <> 0) by (fold K; lra).
    eapply deriv_eq; [| |exact (deriv_quot _ _ _ _ _ KZ DN DK)].
    + intros s. cbv beta. unfold posRef. rewrite line_error_val. reflexivity.
    + cbv beta zeta. fold K N. change (trn (M t), mapp (lin (M t)) v) with (l t).
      set (dp := mapp (lin (M t)) (fst n)). set (dd := mapp (lin (M t)) (cross (snd n) v)).
      rewrite (dN_lin _ _ dd), (dK_lin _ _ dd). unfold line_diffh. rewrite diffa_ok, diffb_ok. fold K N.
      generalize (dN (l t) r unitX) (dN (l t) r unitY) (dN (l t) r unitZ) (dK (l t) r unitX) (dK (l t) r unitY) (dK (l t) r unitZ).
      intros nx ny nz kx ky kz. unfold normal. clearbody K N dp dd. destruct dp as [p1 p2 p3], dd as [d1 d2 d3].
      generalize (snd (l t)) (snd r). intros [a b c] [d e f]. unfold vdot, cross. cbn [fst snd vx vy vz]. unfold Rsqr. field. lra.
Qed.

(** Full statement: the rate of the error is what the jacobian gives.  Missing:
    motions that change the height of the direction of the line (see the
    refutation below). *)
Theorem line_rate_partial (M : R -> hom) v r t Jq qd :
  let l s := (trn (M s), mapp (lin (M s)) v) in
  body_velocity M t (jvel Jq qd) -> normal (l t) r <> v0 ->
  derivable_pt_lim (fun s => vz (snd (l s))) t 0 ->
  let posRef := vlist (fst r) ++ vlist (snd r) in
  derivable_pt_lim (fun s => nth 0 (vals (line_error (M s) (vlist v) posRef)) 0) t
    (dotR (vals (line_jacobian (M t) (vlist v) posRef Jq)) qd).
Proof.
  intros l VM Hn HZ posRef. destruct (line_rate_missing M v r t Jq qd VM Hn) as (m & _ & D). fold posRef in D.
  pose proof (direction_rate M t _ v VM) as (_ & _ & DZ).
  pose proof (uniqueness_limite _ _ _ _ DZ HZ) as E. rewrite E, Rmult_0_r, Rplus_0_r in D. exact D.
Qed.

(** The line points along y and turns about x: the error changes, the jacobian
    says it does not. *)
Theorem line_rate_refuted :
  exists (M : R -> hom) v r Jq qd, (forall s, is_rigid (M s)) /\
  body_velocity M 0 (jvel Jq qd) /\ normal (trn (M 0), mapp (lin (M 0)) v) r <> v0 /\
  let posRef := vlist (fst r) ++ vlist (snd r) in
  dotR (vals (line_jacobian (M 0) (vlist v) posRef Jq)) qd = 0 /\
  derivable_pt_lim (fun s => nth 0 (vals (line_error (M s) (vlist v) posRef)) 0) 0 (-1).
Proof.
  set (M := fun s => H (aaToMat (AA s unitX)) unitY). exists M, unitY, (v0, unitX), [(v0, unitX)], [1].
  assert (EJ : jvel [(v0, unitX)] [1] = (v0, unitX)).
  { cbn [jvel fst snd]. unfold v0, unitX, vadd, vscal. gcbn. f_equal; f_equal; ring. }
  assert (L : forall s, (trn (M s), mapp (lin (M s)) unitY) = (unitY, V3 0 (cos s) (sin s))).
  { intros s. cbn [M trn lin]. f_equal. unfold aaToMat, unitX, unitY, vscal, mapp. gcbn. f_equal; ring. }
  split; [intros s; apply aaToMat_rot; exact unitX_unit|]. split.
  { rewrite EJ. split; cbn [fst snd M lin trn].
    - rewrite mapp_v0. exact (vderiv_const unitY 0).
    - rewrite no_turn, mmul_1_l. exact spin_x. }
  split.
  { rewrite L. rewrite sin_0, cos_0. unfold normal. cbn [fst snd]. intros E. pose proof (f_equal vz E) as Z.
    unfold cross, unitX, v0 in Z. cbn [vx vy vz] in Z. lra. }
  intros posRef. split.
  - destruct (line_J_dot (M 0) unitY (v0, unitX) [(v0, unitX)] [1]) as (J & E1 & E2). unfold posRef. rewrite E1. cbn [vals].
    rewrite E2, L, EJ. cbv zeta. cbn [fst snd]. rewrite mapp_v0. cbn [M lin]. rewrite no_turn, mapp_id.
    unfold line_diffh, vdot, cross, v0, unitX, unitY. cbn [fst snd vx vy vz]. ring.
  - pose proof (derivable_pt_lim_opp sin 0 (cos 0) (derivable_pt_lim_sin 0)) as D2. rewrite cos_0 in D2.
    eapply deriv_eq; [|reflexivity|exact D2]. intros s. unfold opp_fct, posRef. rewrite line_error_val, L. cbn [vals nth].
    rewrite N_normal, K_normal. unfold normal, vdot, vsub, cross, v0, unitX, unitY. cbn [fst snd vx vy vz].
    pose proof (sin2_cos2 s) as S. unfold Rsqr in S. 
    match goal with |- _ = ?n / ?d => replace n with (- sin s) by ring;
      replace d with (sin s * sin s + cos s * cos s) by ring end.
    rewrite S. field.
Qed.

(** ** C99: VisualPointProjecter *)
(** A point of the scene cannot be projected: with three coordinates the
    product with the 4x4 matrix is outside the contract of the matrix library,
    in both builds. *)
Theorem projecter_point_refuted nd M p : proj_point2D nd M (vlist p) = UB.
Proof. reflexivity. Qed.

(** With assertions, no input at all gives an image point. *)
Theorem projecter_assert_refuted M p3 l : proj_point2D false M p3 <> Ok l.
Proof.
  unfold proj_point2D, proj_gaze. destruct p3 as [|x [|y [|z [|w [|]]]]]; cbn [bind]; discriminate.
Qed.

(** Without assertions, with homogeneous coordinates: a point placed in
    front of the camera at [c] (in its frame) has image [c.x / c.z, c.y /
    c.z], and its depth is [c.z], wherever the camera is. Missing: points
    with three coordinates and builds with assertions, where nothing can
    be projected. *)
Theorem projecter_image_partial M c : is_rigid M ->
  let p3 := vlist (happ M c) ++ [1] in
  proj_point2D true M p3 = Ok [vx c / vz c; vy c / vz c] /\
  bind (proj_gaze M p3) (proj_depth true) = Ok (vz c).
Proof.
  intros HM p3.
  assert (G : proj_gaze M p3 = Ok [vx c; vy c; vz c; 1]).
  { unfold p3, proj_gaze. cbn [vlist app]. 
    replace (V3 (vx (happ M c)) (vy (happ M c)) (vz (happ M c))) with (happ M c) by (destruct (happ M c); reflexivity).
    assert (E : vadd (mapp (lin (hinv M)) (happ M c)) (vscal 1 (trn (hinv M))) = c).
    { unfold hinv, happ. cbn [lin trn]. rewrite (rot_inv _ HM), mapp_vadd, <- mapp_mmul, (rot_mT_l _ HM), mapp_id.
      generalize (mapp (mT (lin M)) (trn M)). intros [a b d]. destruct c as [x y z].
      unfold vadd, vscal, vopp. gcbn. f_equal; ring. }
    rewrite E. reflexivity. }
  unfold proj_point2D. rewrite G. split; reflexivity.
Qed.

(** ** Non-vacuity *)
(** A frame that turns about x carries the direction y; the wanted direction is z. *)
Definition vex (s : R) : hom := H (aaToMat (AA s unitX)) unitY.
Example vector3_example : body_velocity vex 0 (jvel [(v0, unitX)] [1]) /\
  vals (vec_error (vex 0) (vlist unitY) (vlist unitZ)) = [0; 1; -1] /\
  map (fun row => dotR row [1]) (vals (vec_jacobian (vex 0) (vlist unitY) [(v0, unitX)])) = [0; 0; 1].
Proof.
  assert (EJ : jvel [(v0, unitX)] [1] = (v0, unitX)).
  { cbn [jvel fst snd]. unfold v0, unitX, vadd, vscal. gcbn. f_equal; f_equal; ring. }
  split; [|split].
  - rewrite EJ. split; cbn [fst snd vex lin trn].
    + rewrite mapp_v0. exact (vderiv_const unitY 0).
    + rewrite no_turn, mmul_1_l. exact spin_x.
  - rewrite vector3_error. cbn [vals vex lin]. rewrite no_turn, mapp_id. unfold vlist, vsub, unitY, unitZ. cbn [vx vy vz].
    repeat (apply f_equal2; [ring|]). reflexivity.
  - unfold vec_jacobian, vex. rewrite as3_vlist. cbn [bind lin]. rewrite no_turn, mmul_1_l.
    unfold vec_skew, unitX, unitY. cbn.
    repeat (apply f_equal2; [ring|]). reflexivity.
Qed.
(** A line along z that slides along x, and the y axis: not parallel, the
    height of its direction does not change. *)
Example line_example : let M s := H mid (V3 s 0 0) in
  body_velocity M 0 (jvel [(unitX, v0)] [1]) /\
  normal (trn (M 0), mapp (lin (M 0)) unitZ) (v0, unitY) <> v0 /\
  derivable_pt_lim (fun s => vz (mapp (lin (M s)) unitZ)) 0 0 /\
  dotR (vals (line_jacobian (M 0) (vlist unitZ) (vlist v0 ++ vlist unitY) [(unitX, v0)])) [1] = 1.
Proof.
  intros M.
  assert (EJ : jvel [(unitX, v0)] [1] = (unitX, v0)).
  { cbn [jvel fst snd]. unfold v0, unitX, vadd, vscal. gcbn. f_equal; f_equal; ring. }
  split; [|split; [|split]].
  - rewrite EJ. split; cbn [fst snd M lin trn].
    + rewrite mapp_id. unfold vderiv, unitX. gcbn. split; [apply derivable_pt_lim_id|]. split; apply derivable_pt_lim_const.
    + rewrite skew_v0, mmul_zero_r. exact (mderiv_const mid 0).
  - unfold normal. cbn [M fst snd lin]. rewrite mapp_id. intros E. pose proof (f_equal vx E) as X.
    unfold cross, unitY, unitZ, v0 in X. cbn [vx vy vz] in X. lra.
  - exact (derivable_pt_lim_const (vz (mapp mid unitZ)) 0).
  - destruct (line_J_dot (M 0) unitZ (v0, unitY) [(unitX, v0)] [1]) as (J & E1 & E2). cbn [fst snd] in E1. rewrite E1. cbn [vals].
    rewrite E2, EJ. cbv zeta. cbn [fst snd M lin trn]. rewrite !mapp_id.
    unfold line_diffh, line_K, vdot, cross, v0, unitX, unitY, unitZ. cbn [fst snd vx vy vz]. field.
Qed.
(** A camera one metre above the origin looks at the point (1, 2, 5). *)
Example projecter_example : proj_point2D true (H mid unitZ) [1; 2; 5; 1] = Ok [1 / 4; 2 / 4].
Proof.
  pose proof (proj1 (projecter_image_partial (H mid unitZ) (V3 1 2 4) rot_id)) as P. cbv zeta in P.
  assert (E : vlist (happ (H mid unitZ) (V3 1 2 4)) ++ [1] = [1; 2; 5; 1]).
  { unfold happ. cbn [lin trn]. rewrite mapp_id. unfold vadd, unitZ, vlist. cbn [vx vy vz app].
    repeat (apply f_equal2; [ring|]). reflexivity. }
  rewrite E in P. exact P.
Qed.

Print Assumptions vector3_error.
Print Assumptions vector3_sizes.
Print Assumptions vector3_zero.
Print Assumptions vector3_norm.
Print Assumptions vector3_rate.
Print Assumptions vector3_descent.
Print Assumptions vector3_gain_refuted.
Print Assumptions line_error_distance.
Print Assumptions line_error_zero.
Print Assumptions line_distance_refuted.
Print Assumptions line_sizes.
Print Assumptions line_rate_missing.
Print Assumptions line_rate_partial.
Print Assumptions line_rate_refuted.
Print Assumptions projecter_point_refuted.
Print Assumptions projecter_assert_refuted.
Print Assumptions projecter_image_partial.
Print Assumptions vector3_dimension.
