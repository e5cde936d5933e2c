(** C110: the free flyer of the device moves with the commanded velocity. *)
From Coq Require Import String List Arith Lia ZArith Bool Reals Lra Psatz.
From Verif Require Import Base Device_Model Geom_Model Geom_Facts Geom_Rot Geom_Props OpPoint_Model OpPoint_Props
  Rel_Facts FreeFly_Model FreeFly_Facts.
Import ListNotations.
Local Open Scope R_scope.

(** ** Specification *)
(** The pose written in the first six coefficients of a configuration: position, then roll, pitch
    and yaw. *)
Definition pose_of (st : list R) : outcome hom := poseRollPitchYawToMatrixHomo st.

(** A frame goes from one pose to another in the time [T] with a constant velocity of the body
    (linear and angular velocity in its own axes). *)
Definition moves (M0 : hom) (n : vec3 * vec3) (T : R) (M1 : hom) : Prop :=
  exists M : R -> hom, M 0 = M0 /\ M T = M1 /\ forall s, body_velocity M s n.

Inductive path : hom -> list ((vec3 * vec3) * R) -> hom -> Prop :=
| path_nil M : path M [] M
| path_cons M n T M1 l M2 : moves M n T M1 -> path M1 l M2 -> path M ((n, T) :: l) M2.

(** ** The specification determines the pose *)
Lemma null_deriv f : (forall s, derivable_pt_lim f s 0) -> forall a b, f a = f b.
Proof.
  intros D. assert (K : forall a b, a < b -> f a = f b).
  { intros a b L. destruct (MVT_cor2 f (fun _ => 0) a b L (fun c _ => D c)) as (c & E & _). lra. }
  intros a b. destruct (Rtotal_order a b) as [L|[->|L]]; [now apply K|reflexivity|symmetry; now apply K].
Qed.

Lemma mconst (f : R -> mat3) : (forall s, mderiv f s mzero) -> forall a b, f a = f b.
Proof.
  intros D a b.
  assert (K : forall g : mat3 -> R, (forall s, derivable_pt_lim (fun s => g (f s)) s 0) -> g (f a) = g (f b))
    by (intros g Dg; exact (null_deriv _ Dg a b)).
  assert (E : forall m, m = M3 (m00 m) (m01 m) (m02 m) (m10 m) (m11 m) (m12 m) (m20 m) (m21 m) (m22 m)) by (intros []; reflexivity).
  rewrite (E (f a)), (E (f b)). f_equal; apply K; intros s; apply (D s).
Qed.
Lemma vconst (f : R -> vec3) : (forall s, vderiv f s v0) -> forall a b, f a = f b.
Proof.
  intros D a b.
  assert (K : forall g : vec3 -> R, (forall s, derivable_pt_lim (fun s => g (f s)) s 0) -> g (f a) = g (f b))
    by (intros g Dg; exact (null_deriv _ Dg a b)).
  assert (E : forall m, m = V3 (vx m) (vy m) (vz m)) by (intros []; reflexivity).
  rewrite (E (f a)), (E (f b)). f_equal; apply K; intros s; apply (D s).
Qed.

Lemma moves_exp M0 n T : moves M0 n T (hmul M0 (exp6 (vscal T (fst n), vscal T (snd n)))).
Proof.
  destruct n as [v w]. exists (fun s => hmul M0 (exp6 (vscal s v, vscal s w))). split; [|split; [reflexivity|]].
  - rewrite exp6_0. destruct M0 as [[] []]. unfold hmul, hid, mid, v0, mmul, mapp, vadd. cbn. f_equal; f_equal; ring.
  - intros s. apply left_velocity, exp6_velocity.
Qed.

Theorem moves_unique M0 n T M1 : moves M0 n T M1 <-> M1 = hmul M0 (exp6 (vscal T (fst n), vscal T (snd n))).
Proof.
  split; [|intros ->; apply moves_exp].
  intros (M & E0 & ET & B). destruct n as [v w]. cbn [fst snd].
  set (X := fun s => exp6 (vscal s v, vscal s w)).
  assert (RX : forall s, is_rot (lin (X s))) by (intros s; exact (exp6_rigid (vscal s v) (vscal s w))).
  assert (L : forall s, lin (M s) = mmul (lin M0) (lin (X s))).
  { assert (C : forall s, mmul (lin (M s)) (mT (lin (X s))) = lin M0).
    { intros s. rewrite (mconst (fun s => mmul (lin (M s)) (mT (lin (X s)))) ) with (b := 0).
      - unfold X. rewrite exp6_0, E0. cbn [lin hid]. destruct (lin M0). unfold mmul, mT, mid. cbn. f_equal; ring.
      - intros t. refine (mderiv_eq _ _ t _ _ (fun _ => eq_refl) _
          (mderiv_mmul _ _ t _ _ (proj2 (B t)) (mderiv_mT _ t _ (proj2 (exp6_velocity v w t))))).
        cbn [snd]. destruct (lin (M t)), (lin (exp6 (vscal t v, vscal t w))) , w.
        unfold madd, mmul, mT, skew, mzero. cbn. f_equal; ring. }
    intros s. rewrite <- (C s), <- mmul_assoc, (rot_mT_l _ (RX s)), mmul_1_r. reflexivity. }
  assert (P : forall s, trn (M s) = vadd (mapp (lin M0) (trn (X s))) (trn M0)).
  { intros s. assert (C : vsub (trn (M s)) (mapp (lin M0) (trn (X s))) = trn M0).
    { rewrite (vconst (fun s => vsub (trn (M s)) (mapp (lin M0) (trn (X s))))) with (b := 0).
      - unfold X. rewrite exp6_0, E0. destruct M0 as [[] []]. unfold vsub, mapp, hid, v0. cbn. f_equal; ring.
      - intros t. refine (vderiv_eq _ _ t _ _ (fun _ => eq_refl) _
          (vderiv_sub _ _ t _ _ (proj1 (B t)) (vderiv_mapp _ _ t _ _ (mderiv_const (lin M0) t) (proj1 (exp6_velocity v w t))))).
        cbn [fst]. rewrite L. fold (X t). destruct (lin M0), (lin (X t)), (trn (X t)), v.
        unfold vsub, vadd, mapp, mmul, mzero, v0. cbn. f_equal; ring. }
    rewrite <- C. destruct (trn (M s)), (mapp (lin M0) (trn (X s))). unfold vadd, vsub. cbn. f_equal; ring. }
  rewrite <- ET. specialize (L T). specialize (P T). destruct (M T) as [l p]. cbn [lin trn] in *. rewrite L, P. reflexivity.
Qed.

(** The path is the product of the exponentials. *)
Lemma path_product M l M' : path M l M' <->
  M' = fold_left (fun M s => hmul M (exp6 (vscal (snd s) (fst (fst s)), vscal (snd s) (snd (fst s))))) l M.
Proof.
  split.
  - intros P. induction P as [|M n T M1 l M2 A _ IH]; [reflexivity|]. cbn [fold_left fst snd].
    apply moves_unique in A as <-. exact IH.
  - revert M. induction l as [|[n T] l IH]; intros M E; cbn [fold_left fst snd] in E; [subst; constructor|].
    econstructor; [apply moves_exp|]. now apply IH.
Qed.

(** ** One integration *)
Lemma unit_X x : unit_axis (AA x unitX). Proof. unfold unit_axis, vdot, unitX. cbn. ring. Qed.
Lemma unit_Y x : unit_axis (AA x unitY). Proof. unfold unit_axis, vdot, unitY. cbn. ring. Qed.
Lemma unit_Z x : unit_axis (AA x unitZ). Proof. unfold unit_axis, vdot, unitZ. cbn. ring. Qed.
Lemma qmul_unit a b : unit_quat a -> unit_quat b -> unit_quat (qmul a b).
Proof.
  destruct a as [a b' c d], b as [e f g h]. unfold unit_quat, qmul. cbn [qw qx qy qz]. intros A B.
  transitivity ((a * a + b' * b' + c * c + d * d) * (e * e + f * f + g * g + h * h)); [ring|]. rewrite A, B. ring.
Qed.

Lemma integrate_spec p r n dt :
  let M1 := hmul (H (rPYToMatrix r) p) (exp6 (vscal dt (fst n), vscal dt (snd n))) in
  snd (integrateRollPitchYaw (p, r) n dt) = M1 /\ is_rigid M1 /\
  H (rPYToMatrix (snd (fst (integrateRollPitchYaw (p, r) n dt)))) (fst (fst (integrateRollPitchYaw (p, r) n dt))) = M1.
Proof.
  cbv zeta. unfold integrateRollPitchYaw. cbn [fst snd]. unfold rPYToMatrix.
  set (q := qmul (qmul _ _) _).
  assert (Uq : unit_quat q).
  { unfold q. repeat apply qmul_unit; apply aaToQuat_unit; [apply unit_Z|apply unit_Y|apply unit_X]. }
  unfold se3_integrate. cbn [fst snd]. set (M1 := hmul (H (quatToMat q) p) _).
  assert (R1 : is_rot (lin M1)).
  { unfold M1, hmul. cbn [lin]. apply rot_mul; [apply quatToMat_rot, Uq|apply exp6_rigid]. }
  destruct (quat_of_mat _ _ (matToQuat_of _ R1)) as [E U].
  set (q1 := matToQuat (lin M1)) in *.
  set (q2 := if Rlt_dec (qdot q1 q) 0 then qscale (-1) q1 else q1).
  assert (E2 : quatToMat q2 = lin M1 /\ unit_quat q2).
  { unfold q2. destruct (Rlt_dec (qdot q1 q) 0); [|split; assumption]. split.
    - rewrite <- E. destruct q1 as [a b c d]. unfold qscale, quatToMat. cbn [qw qx qy qz]. f_equal; ring.
    - destruct q1 as [a b c d]. unfold unit_quat, qscale in *. cbn [qw qx qy qz] in *. lra. }
  destruct E2 as [E2 U2].
  assert (N : firstOrderNormalize q2 = q2).
  { unfold firstOrderNormalize. assert (D : qdot q2 q2 = 1) by exact U2. rewrite D. destruct q2 as [a b c d].
    unfold qscale. cbn [qw qx qy qz]. f_equal; field. }
  rewrite N, E2. cbn [lin].
  assert (EM : H (lin M1) (trn M1) = M1) by (destruct M1; reflexivity).
  split; [exact EM|]. split; [exact R1|]. transitivity (H (lin M1) (trn M1)); [|exact EM].
  f_equal. exact (eulerAngles_spec _ R1).
Qed.

Lemma pose_of_head st : (6 <= length st)%nat ->
  pose_of st = Ok (H (rPYToMatrix (snd (head6 st))) (fst (head6 st))).
Proof.
  intros L. do 6 (destruct st as [|? st]; [cbn in L; lia|]). reflexivity.
Qed.

(** The configuration after the integration of [vc]. *)
Lemma integrate_position_spec st vc dt : length vc = length st -> (6 <= length st)%nat ->
  exists s M0, integrate_position R Rplus Rmult ff_integrate st vc dt = Ok s /\ length s = length st /\
    pose_of st = Ok M0 /\
    let M1 := hmul M0 (exp6 (vscal dt (fst (head6 vc)), vscal dt (snd (head6 vc)))) in
    pose_of s = Ok M1 /\ snd (integrateRollPitchYaw (head6 st) (head6 vc) dt) = M1 /\ is_rigid M1.
Proof.
  intros L H6. unfold integrate_position. rewrite L, Nat.eqb_refl. destruct (Nat.ltb_spec (length st) 6); [lia|].
  unfold ff_integrate.
  assert (F1 : head6 (firstn 6 st) = head6 st) by (do 6 (destruct st as [|? st]; [cbn in H6; lia|]); reflexivity).
  assert (F2 : head6 (firstn 6 vc) = head6 vc) by (do 6 (destruct vc as [|? vc]; [cbn in *; lia|]); reflexivity).
  rewrite F1, F2. rewrite (pose_of_head st H6).
  destruct (head6 st) as [p r]. cbn [fst snd].
  pose proof (integrate_spec p r (head6 vc) dt) as S. cbv zeta in S. destruct S as (S1 & S2 & S3).
  destruct (fst (integrateRollPitchYaw (p, r) (head6 vc) dt)) as [p' r']. cbn [fst snd] in S3.
  do 2 eexists. split; [reflexivity|]. split; [|split; [reflexivity|]].
  - cbn [app length]. unfold Device_Model.vadd, vscale. rewrite map_length, combine_length, map_length, !skipn_length, L. lia.
  - cbv zeta. split; [|split; assumption].
    rewrite pose_of_head by (cbn; lia). f_equal. rewrite <- S3. destruct p' as [a b c], r' as [d e g]. reflexivity.
Qed.

(** ** First order *)
Definition full_step (n : nat) (s : list R * R) : Prop := length (fst s) = n.

Lemma ff_step_first f u dt n : sanity (dev f) = false -> ctype (dev f) = OneInteg ->
  length (state (dev f)) = n -> (6 <= n)%nat -> length u = n ->
  exists f' M0, ff_send f (DStep u dt) = Ok f' /\ sanity (dev f') = false /\ ctype (dev f') = OneInteg /\
    length (state (dev f')) = n /\ pose_of (state (dev f)) = Ok M0 /\
    let M1 := hmul M0 (exp6 (vscal dt (fst (head6 u)), vscal dt (snd (head6 u)))) in
    pose_of (state (dev f')) = Ok M1 /\ pose f' = Some M1 /\ is_rigid M1.
Proof.
  intros Hs Hm Hn H6 Hu. subst n.
  destruct (integrate_position_spec (state (dev f)) u dt Hu H6) as (s & M0 & E & L & P0 & S).
  cbv zeta in S. destruct S as (S1 & S2 & S3).
  unfold ff_send, ff_exec, r_exec. cbn [dexec]. unfold increment, integrate. rewrite Hs, Hm. cbn [andb bind].
  unfold check_if at 1. cbn [bind]. rewrite E. cbn [bind]. unfold check_if. cbn [bind].
  unfold ff_velocity. rewrite Hm, Hu, Nat.eqb_refl.
  eexists. exists M0. split; [reflexivity|]. cbv zeta. cbn [dev pose sanity ctype state velocity length]. rewrite S2.
  repeat (split; [first [assumption|reflexivity]|]). exact S3.
Qed.

(** For every sequence of velocities given to a robot with a free flyer, of any size: the pose in the
    configuration follows, one after the other, the motions with these constant velocities of the
    body for their durations; it stays rigid; and the free flyer pose is that same pose. *)
Theorem free_flyer_first_order (us : list (list R * R)) f n :
  sanity (dev f) = false -> ctype (dev f) = OneInteg -> length (state (dev f)) = n -> (6 <= n)%nat ->
  Forall (full_step n) us ->
  exists f' M0 M1, ff_run (map (fun s => DStep (fst s) (snd s)) us) f = Ok f' /\
    pose_of (state (dev f)) = Ok M0 /\ pose_of (state (dev f')) = Ok M1 /\
    path M0 (map (fun s => (head6 (fst s), snd s)) us) M1 /\ is_rigid M1 /\
    (us <> [] -> freeFlyerPose f' = Ok M1).
Proof.
  intros Hs Hm Hn H6 Hus.
  assert (G : forall us f, sanity (dev f) = false -> ctype (dev f) = OneInteg -> length (state (dev f)) = n ->
    Forall (full_step n) us ->
    exists f' M0 M1, ff_run (map (fun s => DStep (fst s) (snd s)) us) f = Ok f' /\
      pose_of (state (dev f)) = Ok M0 /\ pose_of (state (dev f')) = Ok M1 /\
      path M0 (map (fun s => (head6 (fst s), snd s)) us) M1 /\ is_rigid M1 /\
      (pose f = Some M0 \/ us <> [] -> pose f' = Some M1)).
  { clear us f Hs Hm Hn Hus. induction us as [|[u dt] us IH]; intros f Hs Hm Hn Hus.
    - exists f. rewrite (pose_of_head (state (dev f))) by lia. do 2 eexists.
      split; [reflexivity|]. split; [reflexivity|]. split; [reflexivity|]. split; [constructor|].
      split; [|intros [P|P]; [exact P|congruence]].
      unfold is_rigid. cbn [lin]. apply rpy_is_rotation.
    - inversion Hus as [|? ? Hu Hus']; subst. unfold full_step in Hu. cbn [fst] in Hu.
      destruct (ff_step_first f u dt _ Hs Hm eq_refl H6 Hu) as (f1 & M0 & E & Hs1 & Hm1 & Hn1 & P0 & S).
      cbv zeta in S. destruct S as (P1 & Q1 & R1).
      destruct (IH f1 Hs1 Hm1 Hn1 Hus') as (f' & M1' & M2 & E' & P1' & P2 & PP & R2 & Q2).
      rewrite P1 in P1'. injection P1' as <-.
      exists f', M0, M2. cbn [map fst snd]. unfold ff_run. cbn [ofold]. rewrite E. cbn [bind].
      split; [exact E'|]. split; [exact P0|]. split; [exact P2|]. split.
      + econstructor; [apply moves_exp|exact PP].
      + split; [exact R2|]. intros _. apply Q2. left. exact Q1. }
  destruct (G us f Hs Hm Hn Hus) as (f' & M0 & M1 & E & P0 & P1 & PP & R1 & Q).
  exists f', M0, M1. repeat (split; [assumption|]). intros Hne. unfold freeFlyerPose. rewrite Q by (right; exact Hne). reflexivity.
Qed.

(** ** Second order *)
(** The velocities of the body during the successive periods: the mean of the velocities at their
    ends. *)
Fixpoint mean_velocities (v : list R) (us : list (list R * R)) : list ((vec3 * vec3) * R) :=
  match us with
  | [] => []
  | (u, dt) :: us =>
      let v' := map (fun p => fst p + snd p * dt) (combine v u) in
      (head6 (map (fun p => (fst p + snd p) / 2) (combine v v')), dt) :: mean_velocities v' us
  end.

Lemma vadd_len (a b : list R) : length a = length b -> length (Device_Model.vadd R Rplus a b) = length a.
Proof. intros L. unfold Device_Model.vadd. rewrite map_length, combine_length, L. lia. Qed.
Lemma vscale_len (a : list R) x : length (vscale R Rmult a x) = length a.
Proof. apply map_length. Qed.

Lemma new_velocity v u dt : Device_Model.vadd R Rplus v (vscale R Rmult u dt) = map (fun p => fst p + snd p * dt) (combine v u).
Proof.
  revert u. induction v as [|a v IH]; intros [|b u]; try reflexivity.
  cbn. f_equal. apply IH.
Qed.
Lemma mean_velocity v u dt : length u = length v ->
  Device_Model.vadd R Rplus v (vscale R Rmult u (1 / 2 * dt)) =
  map (fun p => (fst p + snd p) / 2) (combine v (map (fun p => fst p + snd p * dt) (combine v u))).
Proof.
  revert u. induction v as [|a v IH]; intros [|b u] L; try reflexivity; try discriminate.
  cbn in *. f_equal; [field|]. apply IH. lia.
Qed.

Lemma ff_step_second f u dt n : sanity (dev f) = false -> ctype (dev f) = TwoInteg ->
  length (state (dev f)) = n -> length (velocity (dev f)) = n -> (6 <= n)%nat -> length u = n ->
  let v' := map (fun p => fst p + snd p * dt) (combine (velocity (dev f)) u) in
  let w := head6 (map (fun p => (fst p + snd p) / 2) (combine (velocity (dev f)) v')) in
  exists f' M0, ff_send f (DStep u dt) = Ok f' /\ sanity (dev f') = false /\ ctype (dev f') = TwoInteg /\
    length (state (dev f')) = n /\ velocity (dev f') = v' /\ length v' = n /\ pose_of (state (dev f)) = Ok M0 /\
    let M1 := hmul M0 (exp6 (vscal dt (fst w), vscal dt (snd w))) in
    pose_of (state (dev f')) = Ok M1 /\ pose f' = Some M1 /\ is_rigid M1.
Proof.
  intros Hs Hm Hn Hv H6 Hu. cbv zeta. rewrite <- mean_velocity by lia.
  set (vc := Device_Model.vadd R Rplus (velocity (dev f)) (vscale R Rmult u (1 / 2 * dt))).
  assert (Lc : length vc = length (state (dev f))) by (unfold vc; rewrite vadd_len; rewrite ?vscale_len; lia).
  destruct (integrate_position_spec (state (dev f)) vc dt Lc ltac:(lia)) as (s & M0 & E & L & P0 & S).
  cbv zeta in S. destruct S as (S1 & S2 & S3).
  unfold ff_send, ff_exec, r_exec. cbn [dexec]. unfold increment, integrate. rewrite Hs, Hm. cbn [andb].
  unfold tail. rewrite Hu, Hv, Nat.leb_refl, Nat.sub_diag. cbn [skipn bind]. unfold set_tail.
  rewrite vadd_len by (rewrite vscale_len; lia). rewrite Hv, Nat.leb_refl, Nat.sub_diag. cbn [firstn app bind].
  unfold check_if at 1. cbn [bind]. fold vc. rewrite E. cbn [bind]. unfold check_if. cbn [bind].
  unfold ff_velocity. rewrite Hm, Hu, Hv, Nat.sub_diag. cbn [skipn]. fold vc. rewrite Lc, Nat.eqb_refl.
  eexists. exists M0. split; [reflexivity|]. cbv zeta. cbn [dev pose sanity ctype state velocity length]. rewrite S2, new_velocity.
  assert (Lv : length (map (fun p => fst p + snd p * dt) (combine (velocity (dev f)) u)) = n) by (rewrite map_length, combine_length; lia).
  rewrite <- Hn in *. repeat (split; [first [assumption|reflexivity]|]). exact S3.
Qed.

(** In second order mode the pose follows the motions with the mean velocities. *)
Theorem free_flyer_second_order (us : list (list R * R)) f n :
  sanity (dev f) = false -> ctype (dev f) = TwoInteg -> length (state (dev f)) = n ->
  length (velocity (dev f)) = n -> (6 <= n)%nat -> Forall (full_step n) us ->
  exists f' M0 M1, ff_run (map (fun s => DStep (fst s) (snd s)) us) f = Ok f' /\
    pose_of (state (dev f)) = Ok M0 /\ pose_of (state (dev f')) = Ok M1 /\
    path M0 (mean_velocities (velocity (dev f)) us) M1 /\ is_rigid M1 /\
    (us <> [] -> freeFlyerPose f' = Ok M1).
Proof.
  intros Hs Hm Hn Hv H6 Hus.
  assert (G : forall us f, sanity (dev f) = false -> ctype (dev f) = TwoInteg -> length (state (dev f)) = n ->
    length (velocity (dev f)) = n -> Forall (full_step n) us ->
    exists f' M0 M1, ff_run (map (fun s => DStep (fst s) (snd s)) us) f = Ok f' /\
      pose_of (state (dev f)) = Ok M0 /\ pose_of (state (dev f')) = Ok M1 /\
      path M0 (mean_velocities (velocity (dev f)) us) M1 /\ is_rigid M1 /\
      (pose f = Some M0 \/ us <> [] -> pose f' = Some M1)).
  { clear us f Hs Hm Hn Hv Hus. induction us as [|[u dt] us IH]; intros f Hs Hm Hn Hv Hus.
    - exists f. rewrite (pose_of_head (state (dev f))) by lia. do 2 eexists.
      split; [reflexivity|]. split; [reflexivity|]. split; [reflexivity|]. split; [constructor|].
      split; [|intros [P|P]; [exact P|congruence]].
      unfold is_rigid. cbn [lin]. apply rpy_is_rotation.
    - inversion Hus as [|? ? Hu Hus']; subst. unfold full_step in Hu. cbn [fst] in Hu.
      destruct (ff_step_second f u dt _ Hs Hm eq_refl Hv H6 Hu) as (f1 & M0 & E & Hs1 & Hm1 & Hn1 & Ev & Lv & P0 & S).
      cbv zeta in S. destruct S as (P1 & Q1 & R1).
      destruct (IH f1 Hs1 Hm1 Hn1 ltac:(rewrite Ev; exact Lv) Hus') as (f' & M1' & M2 & E' & P1' & P2 & PP & R2 & Q2).
      rewrite P1 in P1'. injection P1' as <-. rewrite Ev in PP.
      exists f', M0, M2. cbn [map fst snd]. unfold ff_run. cbn [ofold]. rewrite E. cbn [bind].
      split; [exact E'|]. split; [exact P0|]. split; [exact P2|]. split.
      + cbn [mean_velocities]. econstructor; [apply moves_exp|exact PP].
      + split; [exact R2|]. intros _. apply Q2. left. exact Q1. }
  destruct (G us f Hs Hm Hn Hv Hus) as (f' & M0 & M1 & E & P0 & P1 & PP & R1 & Q).
  exists f', M0, M1. repeat (split; [assumption|]). intros Hne. unfold freeFlyerPose. rewrite Q by (right; exact Hne). reflexivity.
Qed.

(** ** Findings *)
(** A device with a state, in first order mode, without checks. *)
Definition ready (st : list R) : ffdev :=
  FF (mkDevice st (repeat 0 (length st)) [] false OneInteg [] [] [] [] [] [] st []) None.

Lemma exp6_zero : exp6 (vscal 1 v0, vscal 1 v0) = hid.
Proof. rewrite exp6_v0. unfold hid. f_equal. unfold vscal, v0. cbn. f_equal; ring. Qed.

Lemma hmul_hid_r M : hmul M hid = M.
Proof. destruct M as [[] []]. unfold hmul, hid, mid, v0, mmul, mapp, vadd. cbn. f_equal; f_equal; ring. Qed.

Lemma ok_inj {A} (a b : A) : Ok a = Ok b -> a = b.
Proof. now intros [= ->]. Qed.

Lemma send_pose f c f' : ff_send f c = Ok f' -> (forall u dt, c <> DStep u dt) -> pose f' = pose f.
Proof.
  unfold ff_send, ff_exec. generalize (r_exec (dev f) c). intros [d|e|] E Hc; cbn [bind] in E; [| |discriminate].
  - apply ok_inj in E. subst f'. cbn [pose]. destruct c; try reflexivity. exfalso. exact (Hc _ _ eq_refl).
  - apply ok_inj in E. now subst f'.
Qed.

(** The pose of the free flyer has no value before the first step, whatever was set before. *)
Theorem free_flyer_pose_undefined_refuted cs f :
  (forall u dt, ~ In (DStep u dt) cs) -> ff_run cs ff_new = Ok f -> freeFlyerPose f = UB.
Proof.
  intros Hc E.
  assert (G : forall cs g f, (forall u dt, ~ In (DStep u dt) cs) -> pose g = None -> ff_run cs g = Ok f -> pose f = None).
  { clear. induction cs as [|c cs IH]; intros g f Hc Hg E; [injection E as <-; exact Hg|].
    unfold ff_run in E. cbn [ofold] in E. destruct (ff_send g c) as [g1| |] eqn:Es; try discriminate. cbn [bind] in E.
    apply (IH g1 f); [intros u dt K; exact (Hc u dt (or_intror K))| |exact E].
    rewrite (send_pose g c g1 Es) by (intros u dt ->; exact (Hc u dt (or_introl eq_refl))). exact Hg. }
  unfold freeFlyerPose. rewrite (G cs ff_new f Hc eq_refl E). reflexivity.
Qed.

(** Setting the configuration does not move the free flyer pose. *)
Theorem free_flyer_set_state_refuted f st M f' : freeFlyerPose f = Ok M -> ff_send f (DSet st) = Ok f' ->
  freeFlyerPose f' = Ok M.
Proof.
  intros E K. unfold freeFlyerPose in *. rewrite (send_pose f _ f' K) by discriminate. exact E.
Qed.

Lemma quarter_yaw : rPYToMatrix (V3 0 0 (- (PI / 2))) = M3 0 1 0 (-1) 0 0 0 0 1.
Proof.
  rewrite (proj2 (rpy_is_rotation _)). unfold mmul, axisMat. cbn [vx vy vz m00 m01 m02 m10 m11 m12 m20 m21 m22].
  rewrite sin_neg, cos_neg, sin_PI2, cos_PI2, sin_0, cos_0. f_equal; ring.
Qed.

Lemma quarter_angles : reverse (eulerAngles210 (M3 0 1 0 (-1) 0 0 0 0 1)) = V3 PI PI (PI / 2).
Proof.
  pose proof PI_RGT_0 as P. unfold eulerAngles210, reverse. cbn [vx vy vz m00 m01 m02 m10 m11 m12 m20 m21 m22].
  replace (1 * 1 + 0 * 0) with 1 by ring. rewrite sqrt_1.
  assert (Z : atan2 (-1) 0 = - (PI / 2)).
  { unfold atan2. destruct (Rlt_dec 0 0); [lra|]. destruct (Rlt_dec 0 (-1)); [lra|]. destruct (Rlt_dec (-1) 0); lra. }
  rewrite Z. destruct (Rlt_dec (- (PI / 2)) 0); [|lra]. replace (- (PI / 2) + PI) with (PI / 2) by field.
  rewrite sin_PI2, cos_PI2.
  assert (A : atan2 (- 0) (- (1)) = PI).
  { unfold atan2. destruct (Rlt_dec 0 (- (1))); [lra|]. destruct (Rlt_dec (- (1)) 0); [|lra].
    destruct (Rle_dec 0 (- 0)); [|lra]. replace (- 0 / - (1)) with 0 by field. rewrite atan_0. ring. }
  assert (B : atan2 (1 * 0 - 0 * 0) (0 * 0 - 1 * 1) = PI).
  { unfold atan2. destruct (Rlt_dec 0 (0 * 0 - 1 * 1)); [lra|]. destruct (Rlt_dec (0 * 0 - 1 * 1) 0); [|lra].
    destruct (Rle_dec 0 (1 * 0 - 0 * 0)); [|lra]. replace ((1 * 0 - 0 * 0) / (0 * 0 - 1 * 1)) with 0 by field. rewrite atan_0. ring. }
  rewrite A, B. reflexivity.
Qed.

Lemma integrate_parts q n dt : let r := integrateRollPitchYaw q n dt in
  r = ((trn (snd r), reverse (eulerAngles210 (lin (snd r)))), snd r).
Proof. reflexivity. Qed.

Lemma quarter_integrate : integrateRollPitchYaw (V3 0 0 0, V3 0 0 (- (PI / 2))) (V3 0 0 0, V3 0 0 0) 1 =
  ((V3 0 0 0, V3 PI PI (PI / 2)), H (M3 0 1 0 (-1) 0 0 0 0 1) (V3 0 0 0)).
Proof.
  pose proof (integrate_spec (V3 0 0 0) (V3 0 0 (- (PI / 2))) (V3 0 0 0, V3 0 0 0) 1) as S. cbv zeta in S.
  destruct S as (S1 & _). cbn [fst snd] in S1. change (exp6 (vscal 1 (V3 0 0 0), vscal 1 (V3 0 0 0))) with (exp6 (vscal 1 v0, vscal 1 v0)) in S1.
  rewrite exp6_zero, hmul_hid_r, quarter_yaw in S1.
  rewrite integrate_parts, S1. cbn [lin trn]. rewrite quarter_angles. reflexivity.
Qed.

(** A null velocity changes the angles of the configuration (not the pose they stand for): a yaw of a
    quarter turn to the right becomes half a turn of roll and pitch and a quarter turn to the left. *)
Theorem free_flyer_rest_refuted : exists f', 
  ff_send (ready [0; 0; 0; 0; 0; - (PI / 2)]) (DStep [0; 0; 0; 0; 0; 0] 1) = Ok f' /\
  state (dev f') = [0; 0; 0; PI; PI; PI / 2].
Proof.
  eexists. split.
  - unfold ff_send, ff_exec, r_exec, ready. cbn [dexec dev]. unfold increment, integrate.
    cbn [sanity ctype andb bind check_if state velocity length repeat].
    unfold integrate_position. cbn [length Nat.eqb Nat.ltb Nat.leb firstn skipn].
    unfold ff_integrate, head6. cbn [nth]. rewrite quarter_integrate. cbn [fst vx vy vz]. reflexivity.
  - reflexivity.
Qed.

(** With the checks on, that jump is cut at the bounds: a robot at rest turns. *)
Theorem free_flyer_bounds_refuted : exists st lo up f1 f' M M',
  length st = 6%nat /\ (forall i, (i < 6)%nat -> nth i lo 0 < nth i st 0 < nth i up 0) /\
  ff_run [DSanity false; DSet st; DPosB lo up; DVelB lo up; DSanity true] ff_new = Ok f1 /\
  state (dev f1) = st /\ pose_of st = Ok M /\
  ff_send f1 (DStep [0; 0; 0; 0; 0; 0] 1) = Ok f' /\
  pose_of (state (dev f')) = Ok M' /\ M' <> M /\ freeFlyerPose f' = Ok M.
Proof.
  pose proof PI_RGT_0 as P. pose proof PI2_3_2 as P3. assert (P4 : PI <= 4) by apply PI_4.
  exists [0; 0; 0; 0; 0; - (PI / 2)], (repeat (-3) 6), (repeat 3 6).
  set (f1 := FF (mkDevice [0; 0; 0; 0; 0; - (PI / 2)] (repeat 0 6) [] true OneInteg
                   (repeat 3 6) (repeat 3 6) [] (repeat (-3) 6) (repeat (-3) 6) [] [0; 0; 0; 0; 0; - (PI / 2)] (repeat 0 6)) None).
  set (st' := [0; 0; 0; 3; 3; PI / 2]).
  set (f' := FF (mkDevice st' (repeat 0 6) [0; 0; 0; 0; 0; 0] true OneInteg
                   (repeat 3 6) (repeat 3 6) [] (repeat (-3) 6) (repeat (-3) 6) [] st' [0; 0; 0; 0; 0; 0])
               (Some (H (M3 0 1 0 (-1) 0 0 0 0 1) (V3 0 0 0)))).
  exists f1, f'. do 2 eexists.
  split; [reflexivity|]. split.
  { intros i Hi. do 6 (destruct i as [|i]; [cbn; lra|]). lia. }
  split; [reflexivity|]. split; [reflexivity|]. split.
  { rewrite pose_of_head by (cbn; lia). unfold head6. cbn [nth fst snd]. rewrite quarter_yaw. reflexivity. }
  split.
  { unfold ff_send, ff_exec, r_exec, f1. cbn [dexec dev]. unfold increment, integrate.
    cbn [sanity ctype existsb orb andb bind state velocity length repeat].
    assert (S0 : forall x, -3 <= x <= 3 -> saturateBounds R rltb x (-3) 3 = (x, false)).
    { intros x Hx. unfold saturateBounds, rltb. destruct (Rlt_dec x (-3)); [lra|]. destruct (Rlt_dec 3 x); [lra|]. reflexivity. }
    assert (S1 : saturateBounds R rltb PI (-3) 3 = (3, true)).
    { unfold saturateBounds, rltb. destruct (Rlt_dec PI (-3)); [lra|]. destruct (Rlt_dec 3 PI); [reflexivity|lra]. }
    unfold check_if at 1. cbn [check_bounds upV loV repeat]. rewrite !(S0 0) by lra. cbn [bind map fst].
    unfold integrate_position. cbn [length Nat.eqb Nat.ltb Nat.leb firstn skipn].
    unfold ff_integrate, head6. cbn [nth]. rewrite quarter_integrate. cbn [fst vx vy vz bind app Device_Model.vadd vscale combine map].
    unfold check_if. cbn [check_bounds upP loP repeat]. rewrite !(S0 0), S1, (S0 (PI / 2)) by lra. cbn [bind map fst].
    cbn [ff_velocity ctype length Nat.eqb dev state nth]. rewrite quarter_integrate. reflexivity. }
  split; [rewrite pose_of_head by (cbn; lia); reflexivity|]. split; [|reflexivity].
  unfold st', head6. cbn [nth fst snd f' dev state]. intros E. apply (f_equal (fun m => m20 (lin m))) in E. cbn [lin m20] in E.
  rewrite (proj2 (rpy_is_rotation _)) in E. unfold mmul, axisMat in E. cbn [vx vy vz m00 m01 m02 m10 m11 m12 m20 m21 m22] in E.
  assert (Hs : 0 < sin 3) by (apply sin_gt_0; lra). change (nth 4 st' 0) with 3 in E. lra.
Qed.

(** ** Non-vacuity *)
Example free_flyer_example : exists f us, sanity (dev f) = false /\ ctype (dev f) = OneInteg /\
  length (state (dev f)) = 8%nat /\ Forall (full_step 8) us /\ length us = 2%nat /\ nth 5 (fst (nth 0 us ([], 0))) 0 = 3.
Proof.
  exists (ready (repeat 1 8)), [([1; 2; 0; 0; 0; 3; 4; 5], 1 / 2); (repeat 1 8, 1 / 10)].
  repeat split; repeat constructor.
Qed.
Example free_flyer_example_second : exists f us, sanity (dev f) = false /\ ctype (dev f) = TwoInteg /\
  length (state (dev f)) = 6%nat /\ length (velocity (dev f)) = 6%nat /\ Forall (full_step 6) us /\ length us = 1%nat.
Proof.
  exists (FF (mkDevice (repeat 0 6) (repeat 1 6) [] false TwoInteg [] [] [] [] [] [] [] []) None), [(repeat 1 6, 1)].
  repeat split; repeat constructor.
Qed.
Example free_flyer_commands_example : exists f, ff_run [DSanity false; DSet (repeat 0 8); DSecondOrder] ff_new = Ok f /\
  ctype (dev f) = TwoInteg.
Proof. eexists. split; reflexivity. Qed.
Example free_flyer_pose_example : exists f M f', freeFlyerPose f = Ok M /\ ff_send f (DSet (repeat 1 6)) = Ok f' /\
  state (dev f') = repeat 1 6.
Proof.
  exists (FF (mkDevice (repeat 0 6) [] [] false OneInteg [] [] [] [] [] [] [] []) (Some hid)). do 2 eexists.
  repeat split.
Qed.

Print Assumptions moves_unique.
Print Assumptions free_flyer_first_order.
Print Assumptions free_flyer_second_order.
Print Assumptions free_flyer_pose_undefined_refuted.
Print Assumptions free_flyer_set_state_refuted.
Print Assumptions free_flyer_rest_refuted.
Print Assumptions free_flyer_bounds_refuted.
