(** The logarithm of a rigid motion and its derivative (as pinocchio's log6 and
    Jlog6 compute them), proved to be the derivative along every motion. *)
From Coq Require Import List Arith Lia Bool Reals Lra Psatz.
From Verif Require Import Base Geom_Model Geom_Facts Geom_Rot Geom_Props OpPoint_Model OpPoint_Props.
From Verif Require Import Rodr_Facts Rel_Facts.
Local Open Scope R_scope.

(** The coefficient of the square in the two jacobians, and its derivative
    divided by the angle. *)
Definition beta (th : R) : R :=
  if Req_EM_T th 0 then 1 / 12 else 1 / (th * th) - sin th / (2 * th * (1 - cos th)).
Definition bdot (th : R) : R :=
  if Req_EM_T th 0 then 1 / 360
  else - 2 / (th * th * (th * th)) + (1 + sin th / th) / (th * th * (2 * (1 - cos th))).

(** Inverse of the left jacobian of the exponential. *)
Definition jlogl (e : vec3) : mat3 :=
  madd mid (madd (mscal (- (1 / 2)) (skew e))
                 (mscal (beta (vnorm e)) (mmul (skew e) (skew e)))).

(** external: pinocchio::log6. *)
Definition log6 (m : hom) : vec3 * vec3 :=
  let e := rotvec (lin m) in (mapp (jlogl e) (trn m), e).

Definition outer (a b : vec3) : mat3 :=
  M3 (vx a * vx b) (vx a * vy b) (vx a * vz b)
     (vy a * vx b) (vy a * vy b) (vy a * vz b)
     (vz a * vx b) (vz a * vy b) (vz a * vz b).

(** external: pinocchio::Jlog6 (the series used for very small angles are
    replaced by their limits). *)
Definition jlog6_c (e p : vec3) : mat3 :=
  let b := beta (vnorm e) in
  let bd := bdot (vnorm e) in
  let wTp := vdot e p in
  let tmp := vsub (vscal (bd * wTp) e) (vscal (vdot e e * bd + 2 * b) p) in
  madd (outer tmp e)
    (madd (mscal b (outer e p)) (madd (mscal (wTp * b) mid) (mscal (1 / 2) (skew p)))).
Definition jlog6 (m : hom) : twist :=
  let e := rotvec (lin m) in
  let a := jlog e in
  T6 a (mmul (jlog6_c e (trn m)) a) mzero a.

(* ---------------------------------------------------------------- *)
(** ** Rules *)

Lemma deriv_vdot f g t df dg : vderiv f t df -> vderiv g t dg ->
  derivable_pt_lim (fun s => vdot (f s) (g s)) t (vdot df (g t) + vdot (f t) dg).
Proof.
  intros (A & B & C) (D & E & F). unfold vdot.
  exact (deriv_dot3 _ _ _ _ _ _ t _ _ _ _ _ _ A D B E C F).
Qed.

Lemma vderiv_vscal k f t dk df : derivable_pt_lim k t dk -> vderiv f t df ->
  vderiv (fun s => vscal (k s) (f s)) t (vadd (vscal dk (f t)) (vscal (k t) df)).
Proof.
  intros K (A & B & C). unfold vderiv, vscal, vadd. gcbn.
  repeat split; apply deriv_mult; assumption.
Qed.

Lemma vderiv_cross f g t df dg : vderiv f t df -> vderiv g t dg ->
  vderiv (fun s => cross (f s) (g s)) t (vadd (cross df (g t)) (cross (f t) dg)).
Proof.
  intros (A & B & C) (D & E & F). unfold vderiv, vadd, cross. gcbn.
  assert (L : forall f1 g1 f2 g2 a1 b1 a2 b2,
    derivable_pt_lim f1 t a1 -> derivable_pt_lim g1 t b1 ->
    derivable_pt_lim f2 t a2 -> derivable_pt_lim g2 t b2 ->
    derivable_pt_lim (fun s => f1 s * g1 s - f2 s * g2 s) t
      ((a1 * g1 t - a2 * g2 t) + (f1 t * b1 - f2 t * b2))).
  { intros f1 g1 f2 g2 a1 b1 a2 b2 X Y Z W.
    replace ((a1 * g1 t - a2 * g2 t) + (f1 t * b1 - f2 t * b2))
      with ((a1 * g1 t + f1 t * b1) - (a2 * g2 t + f2 t * b2)) by ring.
    apply (derivable_pt_lim_minus (fun s => f1 s * g1 s) (fun s => f2 s * g2 s));
      apply deriv_mult; assumption. }
  repeat split.
  - exact (L _ _ _ _ _ _ _ _ B F C E).
  - exact (L _ _ _ _ _ _ _ _ C D A F).
  - exact (L _ _ _ _ _ _ _ _ A E B D).
Qed.

(** A bounded function times one that vanishes with its derivative. *)
Lemma deriv_bounded f g t K : 0 < K ->
  g t = 0 -> derivable_pt_lim g t 0 ->
  (exists del, 0 < del /\ forall s, Rabs (s - t) < del -> Rabs (f s) <= K) ->
  derivable_pt_lim (fun s => f s * g s) t 0.
Proof.
  intros HK G0 D (d1 & D1 & B) eps He.
  destruct (D (eps / K)) as [d2 H2]; [apply Rdiv_lt_0_compat; lra|].
  assert (Hd : 0 < Rmin d1 d2) by (apply Rmin_pos; [exact D1|apply cond_pos]).
  exists (mkposreal _ Hd). intros h Hh Hd2. cbn [pos] in Hd2.
  specialize (H2 h Hh (Rlt_le_trans _ _ _ Hd2 (Rmin_r _ _))).
  specialize (B (t + h)).
  replace (t + h - t) with h in B by ring.
  specialize (B (Rlt_le_trans _ _ _ Hd2 (Rmin_l _ _))).
  rewrite G0 in *. rewrite !Rminus_0_r in *. rewrite Rmult_0_r, Rminus_0_r.
  replace (f (t + h) * g (t + h) / h) with (f (t + h) * (g (t + h) / h)) by (field; exact Hh).
  rewrite Rabs_mult.
  apply Rle_lt_trans with (K * Rabs (g (t + h) / h)).
  - apply Rmult_le_compat_r; [apply Rabs_pos|exact B].
  - apply (Rmult_lt_compat_l K) in H2; [|exact HK].
    replace (K * (eps / K)) with eps in H2 by (field; lra). exact H2.
Qed.

(* ---------------------------------------------------------------- *)
(** ** The coefficient *)

Lemma beta_bound th : 0 <= th <= 1 -> Rabs (beta th) <= 1.
Proof.
  intros [A B]. unfold beta. destruct (Req_EM_T th 0) as [E|N].
  - rewrite Rabs_right; lra.
  - set (x := th / 2).
    assert (Hx : 0 < x <= 1 / 2) by (unfold x; lra).
    pose proof PI_RGT_0 as HP. pose proof PI2_1 as HP1.
    assert (S : 0 < sin x) by (apply sin_gt_0; lra).
    assert (E : 1 / (th * th) - sin th / (2 * th * (1 - cos th))
                = (sin x - x * cos x) / (4 * (x * x) * sin x)).
    { replace th with (2 * x) by (unfold x; field).
      rewrite sin_2a, cos_2a_sin.
      replace (1 - (1 - 2 * sin x * sin x)) with (2 * (sin x * sin x)) by ring.
      field. split; lra. }
    rewrite E.
    pose proof (x_cos_le_sin x ltac:(lra)) as U.
    assert (SX : sin x <= x) by (left; apply sin_lt_x; lra).
    assert (CX : 1 - x * x / 2 <= cos x).
    { replace x with (2 * (x / 2)) at 3 by field. rewrite cos_2a_sin.
      assert (0 <= sin (x / 2)) by (apply sin_ge_0; lra).
      assert (sin (x / 2) <= x / 2) by (left; apply sin_lt_x; lra). nra. }
    assert (DN : 0 < 4 * (x * x) * sin x) by (repeat apply Rmult_lt_0_compat; lra).
    rewrite Rabs_right.
    + apply (Rmult_le_reg_r (4 * (x * x) * sin x)); [exact DN|].
      unfold Rdiv. rewrite Rmult_assoc, Rinv_l by lra. rewrite Rmult_1_r, Rmult_1_l.
      assert (Q : sin x - x * cos x <= x * (x * x) / 2) by nra.
      assert (W : x / 2 <= sin x).
      { assert (x * cos x <= sin x) by exact U. assert (1 / 2 <= cos x) by nra. nra. }
      nra.
    + apply Rle_ge. unfold Rdiv. apply Rmult_le_pos; [lra|].
      left. apply Rinv_0_lt_compat, DN.
Qed.

Lemma beta_deriv th : 0 < th < 2 * PI -> derivable_pt_lim beta th (bdot th * th).
Proof.
  intros Hth. pose proof (one_minus_cos th Hth) as C.
  apply (derivable_pt_lim_locally_ext
           (fun x => 1 / (x * x) - sin x / (2 * x * (1 - cos x))) beta th 0 (2 * PI)); [exact Hth| |].
  { intros z Hz. unfold beta. destruct (Req_EM_T z 0); [lra|reflexivity]. }
  unfold bdot. destruct (Req_EM_T th 0); [lra|].
  pose proof (derivable_pt_lim_id th) as DI.
  pose proof (derivable_pt_lim_const 1 th) as D1.
  pose proof (derivable_pt_lim_const 2 th) as D2.
  pose proof (derivable_pt_lim_mult _ _ _ _ _ DI DI) as DX2.
  pose proof (derivable_pt_lim_minus _ _ _ _ _ D1 (derivable_pt_lim_cos th)) as DC.
  pose proof (derivable_pt_lim_mult _ _ _ _ _ (derivable_pt_lim_mult _ _ _ _ _ D2 DI) DC) as DD.
  assert (NX : (id * id)%F th <> 0) by (unfold mult_fct, id; nra).
  assert (ND : (fct_cte 2 * id * (fct_cte 1 - cos))%F th <> 0).
  { unfold mult_fct, minus_fct, fct_cte, id. nra. }
  pose proof (derivable_pt_lim_minus _ _ _ _ _
    (derivable_pt_lim_div _ _ _ _ _ D1 DX2 NX)
    (derivable_pt_lim_div _ _ _ _ _ (derivable_pt_lim_sin th) DD ND)) as D.
  unfold mult_fct, minus_fct, div_fct, fct_cte, id in D.
  match type of D with derivable_pt_lim _ _ ?v => replace (_ * th) with v end.
  - exact D.
  - pose proof (sin2_cos2 th) as T. unfold Rsqr in *.
    set (s := sin th) in *. set (c := cos th) in *. clearbody s c.
    assert (S2 : s * s = 1 - c * c) by lra.
    field [S2]. repeat split; lra.
Qed.

Lemma vnorm_zero e : vnorm e = 0 -> e = v0.
Proof.
  intros E. unfold vnorm in E.
  assert (Q : vdot e e = 0).
  { assert (0 <= vdot e e) by (destruct e; unfold vdot; gcbn; nra).
    apply sqrt_eq_0 in E; assumption. }
  destruct e as [x y z]. unfold vdot in Q. gcbn. unfold v0. f_equal; nra.
Qed.

Lemma skew_v0 : skew v0 = mzero.
Proof. unfold skew, v0, mzero. gcbn. f_equal; ring. Qed.

Lemma jlog_beta e : jlog e =
  madd mid (madd (mscal (1 / 2) (skew e)) (mscal (beta (vnorm e)) (mmul (skew e) (skew e)))).
Proof.
  unfold jlog, beta. destruct (Req_EM_T (vnorm e) 0) as [E|E]; [|reflexivity].
  rewrite (vnorm_zero e E), skew_v0, mmul_zero_l. unfold mid, madd, mscal, mzero. gcbn.
  f_equal; ring.
Qed.

Lemma vnorm_opp e : vnorm (vopp e) = vnorm e.
Proof. unfold vnorm. f_equal. destruct e. unfold vdot, vopp. gcbn. ring. Qed.

Lemma jlog_app e p : mapp (jlog e) p =
  vadd p (vadd (vscal (1 / 2) (cross e p)) (vscal (beta (vnorm e)) (cross e (cross e p)))).
Proof. rewrite jlog_beta, !mapp_madd, !mapp_mscal, mapp_mmul, mapp_id, !skew_app. reflexivity. Qed.

Lemma jlogl_app0 e p : mapp (jlogl e) p =
  vadd p (vadd (vscal (- (1 / 2)) (cross e p)) (vscal (beta (vnorm e)) (cross e (cross e p)))).
Proof. unfold jlogl. rewrite !mapp_madd, !mapp_mscal, mapp_mmul, mapp_id, !skew_app. reflexivity. Qed.

Lemma jlogl_jlog e : jlogl e = jlog (vopp e).
Proof.
  apply mapp_ext. intros p. rewrite jlogl_app0, jlog_app, vnorm_opp. generalize (beta (vnorm e)).
  intros b. destruct e, p. apply vec3_ext; unfold vadd, vscal, vopp, cross; gcbn; ring.
Qed.

(** In coordinates. *)
Lemma jlogl_app e p : mapp (jlogl e) p =
  vadd (vsub p (vscal (1 / 2) (cross e p)))
       (vscal (beta (vnorm e)) (vsub (vscal (vdot e p) e) (vscal (vdot e e) p))).
Proof.
  rewrite jlogl_app0. generalize (beta (vnorm e)).
  intros b. destruct e, p. apply vec3_ext; unfold vadd, vsub, vscal, vdot, cross; gcbn; ring.
Qed.

Lemma outer_app a b d : mapp (outer a b) d = vscal (vdot b d) a.
Proof. destruct a, b, d. unfold mapp, outer, vscal, vdot. gcbn. f_equal; ring. Qed.

Lemma jlog6_c_app e p d : mapp (jlog6_c e p) d =
  vadd (vscal (bdot (vnorm e) * vdot e d) (vsub (vscal (vdot e p) e) (vscal (vdot e e) p)))
  (vadd (vscal (beta (vnorm e))
          (vsub (vadd (vscal (vdot d p) e) (vscal (vdot e p) d)) (vscal (2 * vdot e d) p)))
        (vscal (- (1 / 2)) (cross d p))).
Proof.
  unfold jlog6_c. cbv zeta. rewrite !mapp_madd, !mapp_mscal, !outer_app, mapp_id, skew_app.
  generalize (beta (vnorm e)) (bdot (vnorm e)) (vdot e e) (vdot e p) (vdot e d).
  intros b c ee ep ed.
  assert (X : vdot d p = vdot p d) by (destruct p, d; unfold vdot; gcbn; ring). rewrite X.
  generalize (vdot p d). intros pd. clear X. destruct e, p, d.
  apply vec3_ext; unfold vadd, vsub, vscal, cross; gcbn; ring.
Qed.

Lemma cross_vopp_l u x : cross (vopp u) x = vopp (cross u x).
Proof. destruct u, x. unfold cross, vopp. gcbn. f_equal; ring. Qed.
Lemma vdot_vopp_l u x : vdot (vopp u) x = - vdot u x.
Proof. destruct u, x. unfold vdot, vopp. gcbn. ring. Qed.

(** The left jacobian turns a world velocity as the right one its body value. *)
Lemma jlogl_rot th u v : 0 < th < 2 * PI -> vdot u u = 1 ->
  mapp (jlogl (vscal th u)) (mapp (aaToMat (AA th u)) v) = mapp (jlog (vscal th u)) v.
Proof.
  intros Hth U.
  assert (C : 0 < 1 - cos th) by (apply one_minus_cos; lra).
  pose proof (sin2_cos2 th) as T. unfold Rsqr in T.
  rewrite jlogl_jlog. replace (vopp (vscal th u)) with (vscal th (vopp u)).
  2:{ destruct u. unfold vopp, vscal. gcbn. f_equal; ring. }
  assert (U' : vdot (vopp u) (vopp u) = 1).
  { rewrite <- U. destruct u. unfold vdot, vopp. gcbn. ring. }
  rewrite (jlog_aa th _ _ ltac:(lra) U'), (jlog_aa th u v ltac:(lra) U).
  assert (RV : mapp (aaToMat (AA th u)) v =
    vadd (vscal (cos th) v) (vadd (vscal (sin th) (cross u v)) (vscal ((1 - cos th) * vdot u v) u))).
  { unfold aaToMat. cbn [ang axis]. generalize (sin th) (cos th). intros s c.
    destruct u, v. unfold mapp, vadd, vscal, cross, vdot. gcbn. f_equal; ring. }
  rewrite RV.
  set (k := vdot u v).
  assert (CR : cross (vopp u) (vadd (vscal (cos th) v)
      (vadd (vscal (sin th) (cross u v)) (vscal ((1 - cos th) * k) u)))
    = vadd (vscal (- cos th) (cross u v)) (vscal (- sin th) (vsub (vscal k u) v))).
  { rewrite cross_vopp_l.
    rewrite !cross_vadd, !cross_vscal, (cross_cross u v U), cross_self. fold k.
    generalize (cross u v). intros [a b d]. destruct u, v. unfold vopp, vadd, vscal, vsub, v0.
    gcbn. f_equal; ring. }
  rewrite CR.
  assert (DR : vdot (vopp u) (vadd (vscal (cos th) v)
      (vadd (vscal (sin th) (cross u v)) (vscal ((1 - cos th) * k) u))) = - k).
  { rewrite vdot_vopp_l.
    rewrite !vdot_vadd, !vdot_vscal, vdot_cross, U. fold k. ring. }
  rewrite DR. clear RV CR DR U'. clearbody k. generalize (cross u v). intros [a b d].
  set (s := sin th) in *. set (c := cos th) in *. clearbody s c.
  assert (S2 : s * s = 1 - c * c) by lra.
  destruct u as [u1 u2 u3], v as [v1 v2 v3].
  apply vec3_ext; unfold vopp, vadd, vscal, vsub; gcbn; field [S2]; lra.
Qed.

(* ---------------------------------------------------------------- *)
(** ** Derivatives *)

Lemma deriv_vnorm W t dw : vderiv W t dw -> vnorm (W t) <> 0 ->
  derivable_pt_lim (fun s => vnorm (W s)) t (vdot (W t) dw / vnorm (W t)).
Proof.
  intros D N. unfold vnorm in *.
  assert (P : 0 < vdot (W t) (W t)).
  { assert (0 <= vdot (W t) (W t)) by (destruct (W t); unfold vdot; gcbn; nra).
    destruct H as [H|H]; [exact H|]. rewrite <- H, sqrt_0 in N. lra. }
  pose proof (deriv_vdot _ _ _ _ _ D D) as DD.
  pose proof (derivable_pt_lim_comp _ sqrt _ _ _ DD (derivable_pt_lim_sqrt _ P)) as DS.
  unfold comp in DS.
  replace (vdot (W t) dw / sqrt (vdot (W t) (W t)))
    with (/ (2 * sqrt (vdot (W t) (W t))) * (vdot dw (W t) + vdot (W t) dw)).
  - exact DS.
  - replace (vdot dw (W t)) with (vdot (W t) dw)
      by (destruct dw, (W t); unfold vdot; gcbn; ring).
    field. exact N.
Qed.

(** The term of second order. *)
Lemma square_term_deriv W P t dw dp : vderiv W t dw -> vderiv P t dp ->
  vnorm (W t) < 2 * PI ->
  let g w p := vsub (vscal (vdot w p) w) (vscal (vdot w w) p) in
  let dg := vsub (vadd (vscal (vdot dw (P t) + vdot (W t) dp) (W t)) (vscal (vdot (W t) (P t)) dw))
                 (vadd (vscal (vdot dw (W t) + vdot (W t) dw) (P t)) (vscal (vdot (W t) (W t)) dp)) in
  vderiv (fun s => vscal (beta (vnorm (W s))) (g (W s) (P s))) t
    (vadd (vscal (bdot (vnorm (W t)) * vdot (W t) dw) (g (W t) (P t)))
          (vscal (beta (vnorm (W t))) dg)).
Proof.
  intros DW DP HN g dg.
  assert (DG : vderiv (fun s => g (W s) (P s)) t dg).
  { unfold g, dg. apply vderiv_sub.
    - apply (vderiv_vscal (fun s => vdot (W s) (P s))); [apply deriv_vdot|]; assumption.
    - apply (vderiv_vscal (fun s => vdot (W s) (W s))); [apply deriv_vdot|]; assumption. }
  destruct (Req_EM_T (vnorm (W t)) 0) as [E|N].
  - pose proof (vnorm_zero _ E) as W0.
    assert (G0 : g (W t) (P t) = v0).
    { rewrite W0. destruct (P t). unfold g, vdot, vscal, vsub, v0. gcbn. f_equal; ring. }
    assert (DG0 : dg = v0).
    { unfold dg. rewrite W0. destruct (P t), dw, dp. unfold vdot, vscal, vsub, vadd, v0. gcbn.
      f_equal; ring. }
    rewrite G0, DG0 in *.
    replace (vadd _ _) with v0.
    2:{ unfold vadd, vscal, v0. gcbn. f_equal; ring. }
    assert (B : exists del, 0 < del /\ forall s, Rabs (s - t) < del -> Rabs (beta (vnorm (W s))) <= 1).
    { destruct (deriv_continuous _ _ _ (deriv_vdot _ _ _ _ _ DW DW) 1 ltac:(lra)) as (del & Hd & F).
      exists del. split; [exact Hd|]. intros s Hs. specialize (F s Hs). cbv beta in F.
      replace (vdot (W t) (W t)) with 0 in F.
      2:{ rewrite W0. unfold vdot, v0. gcbn. ring. }
      rewrite Rminus_0_r in F. apply Rabs_def2 in F. apply beta_bound. unfold vnorm. split.
      - apply sqrt_pos.
      - rewrite <- sqrt_1. apply sqrt_le_1_alt. lra. }
    destruct DG as (D1 & D2 & D3).
    pose proof (f_equal vx G0) as X. pose proof (f_equal vy G0) as Y. pose proof (f_equal vz G0) as Z.
    unfold v0 in X, Y, Z, D1, D2, D3. cbn [vx vy vz] in X, Y, Z, D1, D2, D3.
    unfold vderiv, vscal, v0. cbn [vx vy vz].
    split; [|split].
    + exact (deriv_bounded (fun s => beta (vnorm (W s))) (fun s => vx (g (W s) (P s))) t 1
               Rlt_0_1 X D1 B).
    + exact (deriv_bounded (fun s => beta (vnorm (W s))) (fun s => vy (g (W s) (P s))) t 1
               Rlt_0_1 Y D2 B).
    + exact (deriv_bounded (fun s => beta (vnorm (W s))) (fun s => vz (g (W s) (P s))) t 1
               Rlt_0_1 Z D3 B).
  - assert (PN : 0 < vnorm (W t)).
    { pose proof (sqrt_pos (vdot (W t) (W t))). unfold vnorm in *. lra. }
    pose proof (derivable_pt_lim_comp _ beta _ _ _ (deriv_vnorm W t dw DW N)
                  (beta_deriv _ (conj PN HN))) as DB.
    unfold comp in DB.
    replace (bdot (vnorm (W t)) * vnorm (W t) * (vdot (W t) dw / vnorm (W t)))
      with (bdot (vnorm (W t)) * vdot (W t) dw) in DB by (field; exact N).
    exact (vderiv_vscal (fun s => beta (vnorm (W s))) (fun s => g (W s) (P s)) t _ _ DB DG).
Qed.

Lemma jlogl_deriv W P t dw dp : vderiv W t dw -> vderiv P t dp ->
  vnorm (W t) < 2 * PI ->
  vderiv (fun s => mapp (jlogl (W s)) (P s)) t
    (vadd (mapp (jlog6_c (W t) (P t)) dw) (mapp (jlogl (W t)) dp)).
Proof.
  intros DW DP HN.
  pose proof (square_term_deriv W P t dw dp DW DP HN) as DS. cbv zeta beta in DS.
  pose proof (vderiv_vscal (fun _ => 1 / 2) _ t _ _ (derivable_pt_lim_const (1 / 2) t)
                (vderiv_cross _ _ _ _ _ DW DP)) as DC. cbv beta in DC.
  pose proof (vderiv_add _ _ _ _ _ (vderiv_sub _ _ _ _ _ DP DC) DS) as D. cbv beta in D.
  eapply vderiv_eq; [| |exact D].
  - intros s. cbv beta. symmetry. apply jlogl_app.
  - rewrite jlog6_c_app, jlogl_app. generalize (beta (vnorm (W t))) (bdot (vnorm (W t))).
    intros b c. destruct (W t), (P t), dw, dp.
    apply vec3_ext; unfold vadd, vsub, vscal, cross, vdot; gcbn; ring.
Qed.

(** The derivative of the logarithm along every motion, below a half turn. *)
Theorem log6_deriv (M : R -> hom) t n :
  (forall s, is_rigid (M s)) -> body_velocity M t n ->
  ang (matToAA (lin (M t))) < PI ->
  vderiv (fun s => fst (log6 (M s))) t (fst (tapp (jlog6 (M t)) n)) /\
  vderiv (fun s => snd (log6 (M s))) t (snd (tapp (jlog6 (M t)) n)).
Proof.
  intros HM [VT VR] HA.
  pose proof (rotvec_deriv (fun s => lin (M s)) t (snd n) HM VR HA) as DW. cbv beta in DW.
  assert (Z : forall v, mapp mzero v = v0).
  { intros [a b c]. unfold mapp, mzero, v0. gcbn. f_equal; ring. }
  split.
  - unfold log6, jlog6, tapp. cbn [fst b00 b01].
    destruct (rot_angle _ (HM t)) as (U & [A0 _] & EM & _ & _).
    assert (NE : vnorm (rotvec (lin (M t))) = ang (matToAA (lin (M t)))).
    { unfold rotvec. apply vnorm_vscal_unit; assumption. }
    pose proof PI_RGT_0 as HP.
    pose proof (jlogl_deriv _ _ t _ _ DW VT ltac:(cbv beta; rewrite NE; lra)) as D. cbv beta in D.
    eapply vderiv_eq; [reflexivity| |exact D].
    rewrite mapp_mmul.
    assert (J : mapp (jlogl (rotvec (lin (M t)))) (mapp (lin (M t)) (fst n))
                = mapp (jlog (rotvec (lin (M t)))) (fst n)).
    { destruct (Req_EM_T (ang (matToAA (lin (M t)))) 0) as [E|N].
      - rewrite (rot_zero_angle _ (HM t) E), rotvec_id, mapp_id.
        rewrite jlogl_jlog. replace (vopp v0) with v0; [reflexivity|].
        apply vec3_ext; unfold vopp, v0; gcbn; ring.
      - rewrite <- EM at 2. unfold rotvec.
        destruct (matToAA (lin (M t))) as [th u] eqn:Q. cbn [ang axis] in *.
        apply jlogl_rot; [lra|exact U]. }
    rewrite J. generalize (mapp (jlog6_c (rotvec (lin (M t))) (trn (M t)))
      (mapp (jlog (rotvec (lin (M t)))) (snd n))) (mapp (jlog (rotvec (lin (M t)))) (fst n)).
    intros [a b c] [d e f]. apply vec3_ext; unfold vadd; gcbn; ring.
  - unfold log6, jlog6, tapp. cbn [snd b10 b11].
    eapply vderiv_eq; [reflexivity| |exact DW]. rewrite Z.
    generalize (mapp (jlog (rotvec (lin (M t)))) (snd n)).
    intros [a b c]. apply vec3_ext; unfold vadd, v0; gcbn; ring.
Qed.

