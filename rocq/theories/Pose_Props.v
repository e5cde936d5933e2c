(** C91-C94: FeaturePose. *)
From Coq Require Import String List Arith Lia ZArith Bool Reals Lra Psatz.
From Verif Require Import Base Flags_Model Feature_Model Feature_Proofs Geom_Model Geom_Facts
  Geom_Rot Geom_Props OpPoint_Model OpPoint_Props Rodr_Facts Rel_Facts Log6_Facts
  Point6d_Model Point6d_Props Pose_Model.
Import ListNotations.
Local Open Scope R_scope.

(** ** Twists *)
Lemma tapp_tmul a b n : tapp (tmul a b) n = tapp a (tapp b n).
Proof.
  destruct n as [v w]. unfold tapp, tmul. cbn [b00 b01 b10 b11 fst snd].
  rewrite !mapp_madd, !mapp_mmul, !mapp_vadd.
  apply pair_ext; cbn [fst snd]; apply vec3_ext; unfold vadd; gcbn; ring.
Qed.

Definition v6sub (a b : vec3 * vec3) : vec3 * vec3 := (vsub (fst a) (fst b), vsub (snd a) (snd b)).
Definition v6add (a b : vec3 * vec3) : vec3 * vec3 := (vadd (fst a) (fst b), vadd (snd a) (snd b)).
Definition v6opp (a : vec3 * vec3) : vec3 * vec3 := (vopp (fst a), vopp (snd a)).

Lemma tapp_sub x a b : tapp x (v6sub a b) = v6sub (tapp x a) (tapp x b).
Proof.
  destruct a, b. unfold tapp, v6sub. cbn [fst snd]. rewrite !mapp_vsub.
  apply pair_ext; cbn [fst snd]; apply vec3_ext; unfold vadd, vsub; gcbn; ring.
Qed.

Lemma mapp_mopp m v : mapp (mopp m) v = vopp (mapp m v).
Proof. destruct m, v. unfold mapp, mopp, vopp. gcbn. f_equal; ring. Qed.

Lemma tapp_topp x n : tapp (topp x) n = v6opp (tapp x n).
Proof.
  destruct n. unfold tapp, topp, v6opp. cbn [fst snd b00 b01 b10 b11]. rewrite !mapp_mopp.
  apply pair_ext; cbn [fst snd]; apply vec3_ext; unfold vadd, vopp; gcbn; ring.
Qed.

Lemma mapp_zero v : mapp mzero v = v0.
Proof. destruct v. unfold mapp, mzero, v0. gcbn. f_equal; ring. Qed.

Lemma jvel_tjac x j qd : jvel (tjac x j) qd = tapp x (jvel j qd).
Proof.
  unfold tjac. apply jvel_map.
  - intros k [a b] [c d]. unfold tapp. cbn [fst snd]. rewrite !mapp_vadd, !mapp_vscal.
    apply pair_ext; cbn [fst snd]; apply vec3_ext; unfold vadd, vscal; gcbn; ring.
  - unfold tapp. cbn [fst snd]. rewrite !mapp_v0.
    apply pair_ext; cbn [fst snd]; apply vec3_ext; unfold vadd, v0; gcbn; ring.
Qed.

Lemma v6at_sub a b k : v6at (v6sub a b) k = v6at a k - v6at b k.
Proof.
  unfold v6at, v6sub. cbn [fst snd].
  destruct (k <? 3)%nat; [destruct k as [|[|k]]|destruct (k - 3)%nat as [|[|]]]; reflexivity.
Qed.
Lemma v6at_add a b k : v6at (v6add a b) k = v6at a k + v6at b k.
Proof.
  unfold v6at, v6add. cbn [fst snd].
  destruct (k <? 3)%nat; [destruct k as [|[|k]]|destruct (k - 3)%nat as [|[|]]]; reflexivity.
Qed.

(** ** Velocities *)
Lemma body_fixed M tr t n : is_rigid tr -> is_rot (lin (M t)) -> body_velocity M t n ->
  body_velocity (fun s => hmul (M s) tr) t (tapp (buildFrom (hinv tr)) n).
Proof.
  intros Htr HM HV.
  assert (E : forall x : vec3 * vec3, jvel [x] [1] = x).
  { intros [a b]. cbn [jvel fst snd]. apply pair_ext; cbn [fst snd]; apply vec3_ext; unfold vadd, vscal, v0; gcbn; ring. }
  pose proof (op_point_jacobian_body M tr [n] [1] t Htr HM) as P. rewrite E in P. specialize (P HV).
  unfold opm_jacobian, opm_position in P. cbn [transformation isEndEffector tjac map] in P.
  unfold tjac in P. cbn [map] in P. rewrite E in P. exact P.
Qed.

(** The adjoint of the inverse of a rigid motion. *)
Lemma adj_inv x n : is_rigid x ->
  tapp (buildFrom (hinv x)) n
  = (mapp (mT (lin x)) (vadd (fst n) (cross (snd n) (trn x))), mapp (mT (lin x)) (snd n)).
Proof.
  intros Hx. destruct n as [v w]. unfold tapp, buildFrom, hinv. cbn [b00 b01 b10 b11 lin trn fst snd].
  rewrite (rot_inv _ Hx), mapp_zero, mapp_mmul, skew_app, mapp_vadd.
  apply pair_ext; cbn [fst snd].
  - f_equal. rewrite <- (skew_app w (trn x)), <- mapp_mmul, <- (rot_skew _ _ (rot_T _ Hx)), mapp_mmul, skew_app.
    destruct (mapp (mT (lin x)) (trn x)), (mapp (mT (lin x)) w). unfold cross, vopp. gcbn. f_equal; ring.
  - destruct (mapp (mT (lin x)) w). unfold vadd, v0. gcbn. f_equal; ring.
Qed.

(** Both frames move: body velocity of one seen from the other. *)
Lemma rel_body (A B : R -> hom) t na nb :
  (forall s, is_rigid (A s)) -> (forall s, is_rigid (B s)) ->
  body_velocity A t na -> body_velocity B t nb ->
  body_velocity (fun s => rel (A s) (B s)) t
    (v6sub nb (tapp (buildFrom (hinv (rel (A t) (B t)))) na)).
Proof.
  intros HA HB VA VB. destruct (rel_velocity A B t na nb HA HB VA VB) as [P Q]. cbv zeta in P, Q.
  assert (HX : is_rigid (rel (A t) (B t))) by (apply rel_rigid; auto).
  rewrite adj_inv by exact HX. set (X := rel (A t) (B t)) in *.
  unfold body_velocity, v6sub. cbn [fst snd]. split; [|exact Q].
  eapply vderiv_eq; [reflexivity| |exact P].
  cbv beta. fold X. rewrite mapp_vsub, <- (mapp_mmul (lin X) (mT (lin X))), (rot_mT_r _ HX), mapp_id.
  destruct (mapp (lin X) (fst nb)), (fst na), (snd na), (trn X). unfold vsub, vadd, cross. gcbn. f_equal; ring.
Qed.

(** ** Specification *)
(** Velocity of a moving frame given as a twist in the frame it is seen from:
    angular velocity, and velocity of the point of the frame that is at the
    origin. *)
Definition spatial_velocity (M : R -> hom) (t : R) (n : vec3 * vec3) : Prop :=
  vderiv (fun s => trn (M s)) t (vadd (fst n) (cross (snd n) (trn (M t)))) /\
  mderiv (fun s => lin (M s)) t (mmul (skew (snd n)) (lin (M t))).

Definition rigid_in (i : pose_in) : Prop :=
  is_rigid (oMja i) /\ is_rigid (jaMfa i) /\ is_rigid (oMjb i) /\ is_rigid (jbMfb i) /\
  is_rigid (faMfbDes i).

(** The error: for SE3 the logarithm of the pose seen from the desired one;
    for R3xSO3 the difference of the positions and the rotation vector of the
    orientation seen from the desired one. *)
Definition error_of (r : repr) (des m : hom) : vec3 * vec3 :=
  match r with
  | SE3 => log6 (rel des m)
  | R3xSO3 => (vsub (trn m) (trn des), rotvec (mmul (mT (lin des)) (lin m)))
  end.

(** The robot moves with joint velocity [qd]: [I] is the evolution of the
    inputs, and the jacobians are those of the joints. *)
Definition moves (I : R -> pose_in) (t : R) (qd : list R) : Prop :=
  (forall s, rigid_in (I s)) /\
  (forall s, jaMfa (I s) = jaMfa (I t)) /\ (forall s, jbMfb (I s) = jbMfb (I t)) /\
  body_velocity (fun s => oMjb (I s)) t (jvel (jbJjb (I t)) qd) /\
  match jaJja (I t) with
  | Some ja => length ja = length (jbJjb (I t)) /\ body_velocity (fun s => oMja (I s)) t (jvel ja qd)
  | None => body_velocity (fun s => oMja (I s)) t (v0, v0)
  end.

Definition vals {A} (o : outcome (list A)) : list A := match o with Ok l => l | _ => [] end.

(** ** C91: dimension, relative pose, error *)
Theorem pose_dimension_ok fl : pose_dimension fl = Ok (length (chosen fl 6)).
Proof. apply count_flags_ok. Qed.

Lemma vector_roundtrip m : is_rigid m -> ofVector (toVector m) = m.
Proof.
  intros Hm. unfold ofVector, toVector. cbn [fst snd].
  destruct (quat_of_mat _ _ (matToQuat_of (lin m) Hm)) as [E _]. rewrite E. now destruct m.
Qed.

Lemma hmul_inv_l m : is_rigid m -> hmul (hinv m) m = hid.
Proof. intros Hm. apply hinv_l, rigid_det, Hm. Qed.
Lemma hmul_inv_r m : is_rigid m -> hmul m (hinv m) = hid.
Proof. intros Hm. apply hinv_r, rigid_det, Hm. Qed.

Lemma faMfb_rel i : pose_faMfb i = rel (hmul (oMja i) (jaMfa i)) (hmul (oMjb i) (jbMfb i)).
Proof. unfold pose_faMfb, rel. rewrite hmul_assoc. reflexivity. Qed.

Lemma faMfb_rigid i : rigid_in i -> is_rigid (pose_faMfb i).
Proof. intros (A & B & C & D & _). rewrite faMfb_rel. apply rel_rigid; now apply rigid_mul. Qed.

(** The relative pose is the one that closes the loop. *)
Theorem pose_relative i : rigid_in i ->
  hmul (hmul (oMja i) (jaMfa i)) (pose_faMfb i) = hmul (oMjb i) (jbMfb i) /\ is_rigid (pose_faMfb i).
Proof.
  intros Hi. split; [|now apply faMfb_rigid]. destruct Hi as (A & B & C & D & _).
  rewrite faMfb_rel. unfold rel. rewrite hmul_assoc, hmul_inv_r by (now apply rigid_mul). apply hmul_id_l.
Qed.

Lemma difference_ok r i : rigid_in i ->
  lg_difference r (toVector (faMfbDes i)) (toVector (pose_faMfb i)) = error_of r (faMfbDes i) (pose_faMfb i).
Proof.
  intros Hi. pose proof (faMfb_rigid i Hi) as HX. destruct Hi as (_ & _ & _ & _ & HD).
  unfold lg_difference. rewrite !vector_roundtrip by assumption. reflexivity.
Qed.

Theorem pose_error_ok g r fl i : rigid_in i ->
  pose_error g r fl i = Ok (map (v6at (error_of r (faMfbDes i) (pose_faMfb i))) (chosen fl 6)).
Proof.
  intros Hi. unfold pose_error. rewrite pose_dimension_ok, difference_ok by exact Hi. cbn [bind].
  apply collect_full; [reflexivity|]. now rewrite repeat_length.
Qed.

(** With all the components, the error is zero exactly at the desired pose. *)
Lemma rotvec_zero m : is_rot m -> rotvec m = v0 -> m = mid.
Proof.
  intros Hm E. apply rot_zero_angle; [exact Hm|]. rewrite <- (vnorm_rotvec m Hm), E.
  unfold vnorm. replace (vdot v0 v0) with 0 by (unfold vdot, v0; gcbn; ring). apply sqrt_0.
Qed.
Lemma rel_hid a b : is_rigid a -> is_rigid b -> rel a b = hid -> b = a.
Proof.
  intros Ha Hb E. rewrite <- (hmul_id_l b), <- (hmul_inv_r a Ha), <- hmul_assoc.
  change (hmul (hinv a) b) with (rel a b). rewrite E. apply hmul_id_r.
Qed.
Theorem pose_error_zero g r fl i : rigid_in i -> (forall k, (k < 6)%nat -> at_ fl (Z.of_nat k) = Ok true) ->
  (pose_error g r fl i = Ok (repeat 0 6) <-> pose_faMfb i = faMfbDes i).
Proof.
  intros Hi Hf. rewrite (pose_error_ok g r fl i Hi).
  assert (Ch : chosen fl 6 = seq 0 6).
  { unfold chosen. cbn [seq filter].
    assert (F : forall k, (k < 6)%nat -> flag fl k = true).
    { intros k Hk. pose proof (at_flag fl k) as A. rewrite (Hf k Hk) in A. injection A as <-. reflexivity. }
    rewrite !F by lia. reflexivity. }
  rewrite Ch. pose proof (faMfb_rigid i Hi) as HX. destruct Hi as (_ & _ & _ & _ & HD).
  set (X := pose_faMfb i) in *. set (D := faMfbDes i) in *.
  assert (Z : Ok (map (v6at (error_of r D X)) (seq 0 6)) = Ok (repeat 0 6) <-> error_of r D X = (v0, v0)).
  { destruct (error_of r D X) as [a b]. unfold v6at. cbn [seq map repeat fst snd Nat.ltb Nat.leb Nat.sub v3at]. split.
    - intros [= A1 A2 A3 A4 A5 A6]. apply pair_ext; apply vec3_ext; assumption.
    - intros [= -> ->]. reflexivity. }
  etransitivity; [exact Z|]. split.
  - intros E. destruct r; cbn [error_of] in E.
    + unfold log6 in E. cbv zeta in E. pose proof (f_equal fst E) as E1. pose proof (f_equal snd E) as E2. cbn [fst snd] in E1, E2. clear E.
      assert (HR : is_rigid (rel D X)) by (now apply rel_rigid).
      pose proof (rotvec_zero _ HR E2) as EL. apply rel_hid; [assumption..|].
      rewrite EL, rotvec_id, jlogl_jlog in E1.
      replace (vopp v0) with v0 in E1 by (apply vec3_ext; unfold vopp, v0; gcbn; ring).
      rewrite jlog_app in E1.
      assert (ET : trn (rel D X) = v0).
      { rewrite <- E1. generalize (beta (vnorm v0)). intros be. destruct (trn (rel D X)).
        apply vec3_ext; unfold vadd, vscal, cross, v0; gcbn; ring. }
      destruct (rel D X) as [l t]. cbn [lin trn] in EL, ET. subst. reflexivity.
    + pose proof (f_equal fst E) as E1. pose proof (f_equal snd E) as E2. cbn [fst snd] in E1, E2. clear E.
      pose proof (rotvec_zero _ (rot_mul _ _ (rot_T _ HD) HX) E2) as EL.
      apply rel_hid; [assumption..|]. 
      assert (ET : trn (rel D X) = v0) by (rewrite rel_trn by exact HD; rewrite E1; apply mapp_v0).
      assert (EL' : lin (rel D X) = mid) by (rewrite rel_lin by exact HD; exact EL).
      destruct (rel D X) as [l t]. cbn [lin trn] in EL', ET. subst. reflexivity.
  - intros ->. destruct r; cbn [error_of].
    + rewrite (rel_self D HD). unfold log6, hid. cbn [lin trn]. rewrite rotvec_id, mapp_v0. reflexivity.
    + rewrite (rot_mT_l _ HD), rotvec_id. f_equal. destruct (trn D). unfold vsub, v0. gcbn. f_equal; ring.
Qed.

(** With nothing but the second joint plugged: its own pose, against the identity. *)
Theorem pose_default_error g r fl m j : is_rigid m ->
  pose_error g r fl (pose_defaults m j) = Ok (map (v6at (error_of r hid m)) (chosen fl 6)).
Proof.
  intros Hm. assert (Hi : rigid_in (pose_defaults m j)).
  { exact (conj rot_id (conj rot_id (conj Hm (conj rot_id rot_id)))). }
  rewrite (pose_error_ok g r fl _ Hi). unfold pose_faMfb. cbn [pose_defaults oMja jaMfa oMjb jbMfb faMfbDes].
  rewrite !hmul_id_r, hinv_hid, hmul_id_l. reflexivity.
Qed.

(** ** C92: jacobian and error derivative *)
Definition row_diff (a b : list R) : list R := map (fun p => fst p - snd p) (combine a b).
Lemma row_sub_ok a : forall b, length a = length b -> row_sub a b = Ok (row_diff a b).
Proof.
  induction a as [|x a IH]; intros [|y b] E; try discriminate E; [reflexivity|].
  cbn [row_sub]. rewrite (IH b) by (cbn in E; lia). reflexivity.
Qed.
Lemma row_diff_dot a : forall b q, length a = length b -> dotR (row_diff a b) q = dotR a q - dotR b q.
Proof.
  induction a as [|x a IH]; intros [|y b] [|z q] E; try discriminate E; unfold row_diff; cbn; try ring.
  fold (row_diff a b). rewrite IH by (cbn in E; lia). ring.
Qed.

Lemma sub_fold fl (f h : nat -> list R) l : forall pre tl,
  (forall r, length (h r) = length (f r)) ->
  ofold (sub_step fl f) l (length pre, pre ++ map h (filter (flag fl) l) ++ tl)
  = Ok ((length pre + length (filter (flag fl) l))%nat,
        pre ++ map (fun r => row_diff (h r) (f r)) (filter (flag fl) l) ++ tl).
Proof.
  induction l as [|r l IH]; intros pre tl Hl; cbn [ofold filter].
  - cbn. now rewrite Nat.add_0_r.
  - unfold sub_step at 1. rewrite at_flag. cbn [bind]. destruct (flag fl r) eqn:Ef.
    + cbn [map app]. unfold vget. rewrite nth_error_app2, Nat.sub_diag by lia. cbn [nth_error bind].
      rewrite row_sub_ok by apply Hl. cbn [bind].
      assert (V : vset (pre ++ h r :: map h (filter (flag fl) l) ++ tl) (length pre) (row_diff (h r) (f r))
        = Ok ((pre ++ [row_diff (h r) (f r)]) ++ map h (filter (flag fl) l) ++ tl)).
      { clear. unfold vset. destruct (Nat.ltb_spec (length pre) (length (pre ++ h r :: map h (filter (flag fl) l) ++ tl))) as [L|L].
        - f_equal. induction pre as [|x pre IH]; [reflexivity|]. cbn. f_equal. apply IH. cbn in L. lia.
        - rewrite app_length in L. cbn in L. lia. }
      rewrite V. cbn [bind].
      replace (S (length pre)) with (length (pre ++ [row_diff (h r) (f r)])) by (rewrite app_length; cbn; lia).
      rewrite IH by exact Hl. rewrite app_length. cbn [length]. rewrite <- app_assoc. cbn [app]. f_equal. f_equal. lia.
    + cbn [map]. apply IH, Hl.
Qed.

Definition pose_twist_b (r : repr) (i : pose_in) : twist :=
  tmul (lg_dDiff1 r (toVector (faMfbDes i)) (toVector (pose_faMfb i)))
       (top_rows r (lin (pose_faMfb i)) (buildFrom (hinv (jbMfb i)))).
Definition pose_twist_a (r : repr) (i : pose_in) : twist :=
  tmul (lg_dDiff1 r (toVector (faMfbDes i)) (toVector (pose_faMfb i)))
       (top_rows r (lin (pose_faMfb i)) (buildFrom (hinv (hmul (jaMfa i) (pose_faMfb i))))).

Lemma faRfb_lin i : rigid_in i ->
  mmul (mmul (mmul (mT (lin (jaMfa i))) (mT (lin (oMja i)))) (lin (oMjb i))) (lin (jbMfb i)) = lin (pose_faMfb i).
Proof.
  intros (A & B & C & D & _). rewrite faMfb_rel, rel_lin by (now apply rigid_mul).
  unfold hmul. cbn [lin]. rewrite mmul_mT, !mmul_assoc. reflexivity.
Qed.

Lemma pose_jacobian_val g r fl i : rigid_in i ->
  match jaJja i with Some ja => length ja = length (jbJjb i) | None => True end ->
  pose_jacobian g r fl i = Ok (map (fun k =>
     match jaJja i with
     | Some ja => row_diff (jrow (tjac (pose_twist_b r i) (jbJjb i)) k) (jrow (tjac (pose_twist_a r i) ja) k)
     | None => jrow (tjac (pose_twist_b r i) (jbJjb i)) k
     end) (chosen fl 6)).
Proof.
  intros Hi Hl. unfold pose_jacobian. rewrite pose_dimension_ok, faRfb_lin by exact Hi. cbn [bind].
  fold (pose_twist_b r i). fold (pose_twist_a r i).
  rewrite (collect_full fl _ (jrow (tjac (pose_twist_b r i) (jbJjb i)))); [|reflexivity|now rewrite repeat_length].
  cbn [bind]. destruct (jaJja i) as [ja|]; [|reflexivity].
  pose proof (sub_fold fl (jrow (tjac (pose_twist_a r i) ja)) (jrow (tjac (pose_twist_b r i) (jbJjb i))) (seq 0 6) [] []) as S.
  cbn [length app] in S. rewrite !app_nil_r in S. unfold chosen. rewrite S; [reflexivity|].
  intros k. unfold jrow, tjac. rewrite !map_length. symmetry. exact Hl.
Qed.

(** Body velocity of the controlled frame seen from the other one. *)
Definition nuX (I : R -> pose_in) t qd : vec3 * vec3 :=
  let i := I t in
  v6sub (tapp (buildFrom (hinv (jbMfb i))) (jvel (jbJjb i) qd))
    (match jaJja i with
     | Some ja => tapp (buildFrom (hinv (hmul (jaMfa i) (pose_faMfb i)))) (jvel ja qd)
     | None => (v0, v0)
     end).

Lemma hinv_hmul a b : is_rigid a -> is_rigid b -> hinv (hmul a b) = hmul (hinv b) (hinv a).
Proof.
  intros Ha Hb.
  assert (E : hmul (hmul (hinv b) (hinv a)) (hmul a b) = hid).
  { rewrite hmul_assoc, <- (hmul_assoc (hinv b)), hmul_inv_l, hmul_id_r by exact Ha. now apply hmul_inv_l. }
  rewrite <- (hmul_id_l (hinv (hmul a b))), <- E, <- hmul_assoc, hmul_inv_r by (now apply rigid_mul).
  apply hmul_id_r.
Qed.

Lemma nuX_ok I t qd : moves I t qd -> body_velocity (fun s => pose_faMfb (I s)) t (nuX I t qd).
Proof.
  intros (HR & Ca & Cb & Vb & Va).
  set (ja := jaMfa (I t)) in *. set (jb := jbMfb (I t)) in *.
  assert (Hja : is_rigid ja) by apply (HR t). assert (Hjb : is_rigid jb) by apply (HR t).
  assert (HA : forall s, is_rigid (oMja (I s))) by (intros s; apply (HR s)).
  assert (HB : forall s, is_rigid (oMjb (I s))) by (intros s; apply (HR s)).
  assert (EX : forall s, rel (hmul (oMja (I s)) ja) (hmul (oMjb (I s)) jb) = pose_faMfb (I s)).
  { intros s. rewrite faMfb_rel, Ca, Cb. reflexivity. }
  assert (Va' : exists na, body_velocity (fun s => oMja (I s)) t na /\
     na = match jaJja (I t) with Some j => jvel j qd | None => (v0, v0) end).
  { eexists. split; [|reflexivity]. destruct (jaJja (I t)); [apply Va|exact Va]. }
  destruct Va' as (na & VA & Ena).
  pose proof (rel_body (fun s => hmul (oMja (I s)) ja) (fun s => hmul (oMjb (I s)) jb) t _ _
    (fun s => rigid_mul _ _ (HA s) Hja) (fun s => rigid_mul _ _ (HB s) Hjb)
    (body_fixed _ ja t na Hja (HA t) VA) (body_fixed _ jb t _ Hjb (HB t) Vb)) as P.
  cbv beta in P. rewrite EX, <- tapp_tmul in P.
  assert (HX : is_rigid (pose_faMfb (I t))) by (apply faMfb_rigid, HR).
  rewrite <- twist_product in P by (apply rigid_inv, HX). rewrite <- hinv_hmul in P by assumption.
  unfold nuX. cbv zeta. fold ja jb.
  replace (match jaJja (I t) with Some j => tapp (buildFrom (hinv (hmul ja (pose_faMfb (I t))))) (jvel j qd) | None => (v0, v0) end)
    with (tapp (buildFrom (hinv (hmul ja (pose_faMfb (I t))))) na).
  2:{ rewrite Ena. destruct (jaJja (I t)); [reflexivity|].
      rewrite adj_inv by (now apply rigid_mul). cbn [fst snd].
      replace (vadd v0 (cross v0 (trn (hmul ja (pose_faMfb (I t)))))) with v0
        by (apply vec3_ext; unfold vadd, cross, v0; gcbn; ring).
      now rewrite mapp_v0. }
  destruct P as [P1 P2]. cbv beta in P1, P2. rewrite EX in P1, P2. split.
  - eapply vderiv_eq; [|reflexivity|exact P1]. intros s. cbv beta. now rewrite EX.
  - eapply mderiv_eq; [|reflexivity|exact P2]. intros s. cbv beta. now rewrite EX.
Qed.

Lemma v6at_deriv (f : R -> vec3 * vec3) t d k :
  vderiv (fun s => fst (f s)) t (fst d) -> vderiv (fun s => snd (f s)) t (snd d) ->
  derivable_pt_lim (fun s => v6at (f s) k) t (v6at d k).
Proof.
  intros A B. unfold v6at. destruct (k <? 3)%nat; [exact (v3at_deriv _ t _ k A)|exact (v3at_deriv _ t _ (k - 3) B)].
Qed.

Lemma jacobian_dot g r fl I t qd k j : moves I t qd -> nth_error (chosen fl 6) k = Some j ->
  dotR (nth k (vals (pose_jacobian g r fl (I t))) []) qd
  = v6at (tapp (lg_dDiff1 r (toVector (faMfbDes (I t))) (toVector (pose_faMfb (I t))))
       (match r with
        | SE3 => nuX I t qd
        | R3xSO3 => (mapp (lin (pose_faMfb (I t))) (fst (nuX I t qd)), snd (nuX I t qd))
        end)) j.
Proof.
  intros (HR & _ & _ & _ & Ha) Ek. rewrite pose_jacobian_val; [|apply HR|destruct (jaJja (I t)); tauto].
  unfold vals. rewrite (nth_map_chosen _ [] fl k j Ek).
  unfold nuX. cbv zeta. set (i := I t) in *.
  set (Jm := lg_dDiff1 _ _ _).
  assert (T : forall x n, tapp (top_rows r (lin (pose_faMfb i)) x) n
     = match r with SE3 => tapp x n | R3xSO3 => (mapp (lin (pose_faMfb i)) (fst (tapp x n)), snd (tapp x n)) end).
  { intros x [v w]. destruct r; [reflexivity|]. unfold tapp, top_rows. cbn [b00 b01 b10 b11 fst snd].
    now rewrite !mapp_mmul, mapp_vadd. }
  assert (Z : forall n, v6sub n (v0, v0) = n).
  { intros [v w]. unfold v6sub. cbn [fst snd]. apply pair_ext; cbn [fst snd]; apply vec3_ext; unfold vsub, v0; gcbn; ring. }
  destruct (jaJja i) as [ja|].
  - rewrite row_diff_dot.
    2:{ unfold jrow, tjac. rewrite !map_length. symmetry. apply Ha. }
    rewrite !jrow_dot, !jvel_tjac. unfold pose_twist_a, pose_twist_b. fold Jm. rewrite !tapp_tmul, !T, <- v6at_sub, <- tapp_sub.
    f_equal. f_equal. destruct r; [reflexivity|].
    unfold v6sub. cbn [fst snd]. now rewrite mapp_vsub.
  - rewrite jrow_dot, jvel_tjac. unfold pose_twist_b. fold Jm. rewrite tapp_tmul, T, Z. reflexivity.
Qed.

Lemma spatial_body M t n : is_rigid (M t) -> spatial_velocity M t n ->
  body_velocity M t (tapp (buildFrom (hinv (M t))) n).
Proof.
  intros HM [P Q]. rewrite adj_inv by exact HM. split; cbn [fst snd].
  - rewrite <- mapp_mmul, (rot_mT_r _ HM), mapp_id. exact P.
  - rewrite <- (skew_rot _ _ HM). exact Q.
Qed.

(** The pose seen from the desired one. *)
Lemma rel_moving (D X : R -> hom) t nd nx :
  (forall s, is_rigid (D s)) -> (forall s, is_rigid (X s)) ->
  spatial_velocity D t nd -> body_velocity X t nx ->
  body_velocity (fun s => rel (D s) (X s)) t
    (v6sub nx (tapp (buildFrom (hinv (rel (D t) (X t)))) (tapp (buildFrom (hinv (D t))) nd))).
Proof.
  intros HD HX VD VX. apply rel_body; auto. apply spatial_body; auto.
Qed.

(** SE3: the rate of every selected component of the error is the row of the
    jacobian times the joint velocity, plus the component of the error
    derivative, for any motion of the two joints and of the reference (whose
    velocity is the input). *)
Theorem pose_rate_SE3 g gj ge fl (I : R -> pose_in) t qd v w k j :
  moves I t qd -> spatial_velocity (fun s => faMfbDes (I s)) t (v, w) ->
  faNu (I t) = Some (vlist v ++ vlist w) ->
  ang (matToAA (lin (rel (faMfbDes (I t)) (pose_faMfb (I t))))) < PI ->
  nth_error (chosen fl 6) k = Some j ->
  derivable_pt_lim (fun s => nth k (vals (pose_error g SE3 fl (I s))) 0) t
    (dotR (nth k (vals (pose_jacobian gj SE3 fl (I t))) []) qd
     + nth k (vals (pose_errordot ge SE3 fl (I t))) 0).
Proof.
  intros HM VD EN HA Ek. pose proof (proj1 HM) as HR.
  assert (HX : forall s, is_rigid (pose_faMfb (I s))) by (intros s; apply faMfb_rigid, HR).
  assert (HD : forall s, is_rigid (faMfbDes (I s))) by (intros s; apply (HR s)).
  rewrite (jacobian_dot _ _ _ _ _ _ _ _ HM Ek).
  assert (EE : nth k (vals (pose_errordot ge SE3 fl (I t))) 0
     = v6at (tapp (lg_dDiff0 SE3 (toVector (faMfbDes (I t))) (toVector (pose_faMfb (I t))))
                 (tapp (buildFrom (hinv (faMfbDes (I t)))) (v, w))) j).
  { unfold pose_errordot. rewrite EN, pose_dimension_ok. cbn [bind].
    assert (G : get6 (vlist v ++ vlist w) = Ok (v, w)) by (destruct v, w; reflexivity). rewrite G. cbn [bind].
    erewrite collect_full; [|reflexivity|now rewrite repeat_length]. cbn [vals]. exact (nth_map_chosen _ 0 fl k j Ek). }
  rewrite EE. unfold lg_dDiff0, lg_dDiff1. rewrite !vector_roundtrip by auto.
  fold (rel (faMfbDes (I t)) (pose_faMfb (I t))). rewrite tapp_topp, tapp_tmul.
  pose proof (rel_moving _ _ t _ _ HD HX VD (nuX_ok I t qd HM)) as VM. cbv beta in VM.
  destruct (log6_deriv _ t _ (fun s => rel_rigid _ _ (HD s) (HX s)) VM HA) as [P Q].
  rewrite tapp_sub in P, Q.
  pose proof (v6at_deriv (fun s => log6 (rel (faMfbDes (I s)) (pose_faMfb (I s)))) t _ j P Q) as F.
  eapply deriv_eq; [| |exact F].
  - intros s. rewrite pose_error_ok by apply HR. cbn [vals error_of]. symmetry. exact (nth_map_chosen _ 0 fl k j Ek).
  - rewrite v6at_sub. unfold Rminus. f_equal.
    set (z := tapp (jlog6 _) _). unfold v6at, v6opp. cbn [fst snd].
    destruct (j <? 3)%nat; [destruct j as [|[|j]]|destruct (j - 3)%nat as [|[|]]]; reflexivity.
Qed.

(** R3xSO3: the same, up to one term in the translation components: the
    velocity of the reference is taken at the current position instead of the
    desired one. *)
Definition lag (r : repr) (i : pose_in) (w : vec3) : vec3 * vec3 :=
  match r with
  | SE3 => (v0, v0)
  | R3xSO3 => (cross w (vsub (trn (pose_faMfb i)) (trn (faMfbDes i))), v0)
  end.
(** Missing: the rate without the extra term [lag], which is false of the
    code, and rotation errors of exactly half a turn. *)
Theorem pose_rate_R3xSO3_partial g gj ge fl (I : R -> pose_in) t qd v w k j :
  moves I t qd -> spatial_velocity (fun s => faMfbDes (I s)) t (v, w) ->
  faNu (I t) = Some (vlist v ++ vlist w) ->
  ang (matToAA (lin (rel (faMfbDes (I t)) (pose_faMfb (I t))))) < PI ->
  nth_error (chosen fl 6) k = Some j ->
  derivable_pt_lim (fun s => nth k (vals (pose_error g R3xSO3 fl (I s))) 0) t
    (dotR (nth k (vals (pose_jacobian gj R3xSO3 fl (I t))) []) qd
     + nth k (vals (pose_errordot ge R3xSO3 fl (I t))) 0
     + v6at (lag R3xSO3 (I t) w) j).
Proof.
  intros HM VD EN HA Ek. pose proof (proj1 HM) as HR.
  assert (HX : forall s, is_rigid (pose_faMfb (I s))) by (intros s; apply faMfb_rigid, HR).
  assert (HD : forall s, is_rigid (faMfbDes (I s))) by (intros s; apply (HR s)).
  rewrite (jacobian_dot _ _ _ _ _ _ _ _ HM Ek).
  set (nu := convertVelocity R3xSO3 (pose_faMfb (I t)) (faMfbDes (I t)) (v, w)).
  assert (EE : nth k (vals (pose_errordot ge R3xSO3 fl (I t))) 0
     = v6at (tapp (lg_dDiff0 R3xSO3 (toVector (faMfbDes (I t))) (toVector (pose_faMfb (I t)))) nu) j).
  { unfold pose_errordot. rewrite EN, pose_dimension_ok. cbn [bind].
    assert (G : get6 (vlist v ++ vlist w) = Ok (v, w)) by (destruct v, w; reflexivity). rewrite G. cbn [bind].
    erewrite collect_full; [|reflexivity|now rewrite repeat_length]. cbn [vals]. exact (nth_map_chosen _ 0 fl k j Ek). }
  rewrite EE. unfold lg_dDiff0, lg_dDiff1. rewrite !vector_roundtrip by auto.
  pose proof (nuX_ok I t qd HM) as VX.
  pose proof (rel_moving _ _ t _ _ HD HX VD VX) as VM. cbv beta in VM.
  set (n := nuX I t qd) in *. set (X := pose_faMfb (I t)) in *. set (D := faMfbDes (I t)) in *.
  assert (ER : forall s, lin (rel (faMfbDes (I s)) (pose_faMfb (I s))) = mmul (mT (lin (faMfbDes (I s)))) (lin (pose_faMfb (I s))))
    by (intros s; apply rel_lin, HD).
  pose proof (rotvec_deriv (fun s => lin (rel (faMfbDes (I s)) (pose_faMfb (I s)))) t _
     (fun s => rel_rigid _ _ (HD s) (HX s)) (proj2 VM) HA) as Q. cbv beta in Q.
  fold X D in Q.
  assert (E0 : lin (rel D X) = mmul (mT (lin D)) (lin X)) by apply (ER t).
  set (rr := mmul (mT (lin D)) (lin X)) in *.
  rewrite !adj_inv in Q by (first [apply rel_rigid; [apply (HD t)|apply (HX t)]|apply (HD t)]).
  cbn [fst snd v6sub] in Q. rewrite E0 in Q.
  pose proof (vderiv_sub _ _ t _ _ (proj1 VX) (proj1 VD)) as P. cbn [fst snd] in P. fold X D in P.
  assert (Q' : vderiv (fun s => rotvec (mmul (mT (lin (faMfbDes (I s)))) (lin (pose_faMfb (I s))))) t
     (mapp (jlog (rotvec rr)) (vsub (snd n) (mapp (mT rr) (mapp (mT (lin D)) w))))).
  { eapply vderiv_eq; [|reflexivity|exact Q]. intros s. cbv beta. now rewrite ER. }
  pose proof (v6at_deriv (fun s => error_of R3xSO3 (faMfbDes (I s)) (pose_faMfb (I s))) t (_, _) j P Q') as F.
  cbn [error_of fst snd] in F.
  eapply deriv_eq; [| |exact F].
  - intros s. rewrite pose_error_ok by apply HR. cbn [vals]. symmetry. exact (nth_map_chosen _ 0 fl k j Ek).
  - rewrite tapp_topp. unfold tapp. cbn [b00 b01 b10 b11 fst snd lag nu convertVelocity].
    rewrite !mapp_id, !mapp_zero, mapp_mmul, mapp_vsub. fold X D.
    rewrite <- !v6at_add. f_equal. unfold v6add, v6opp. cbn [fst snd].
    generalize (mapp (jlog (rotvec rr)) (snd n)) (mapp (jlog (rotvec rr)) (mapp (mT rr) (mapp (mT (lin D)) w))) (mapp (lin X) (fst n)).
    intros a b c. apply pair_ext; cbn [fst snd]; apply vec3_ext; unfold vsub, vadd, vopp, cross, v0; gcbn; ring.
Qed.

(** Hence exact when the reference does not turn, or at the reference. *)
Theorem pose_rate_exact g gj ge r fl (I : R -> pose_in) t qd v w k j :
  moves I t qd -> spatial_velocity (fun s => faMfbDes (I s)) t (v, w) ->
  faNu (I t) = Some (vlist v ++ vlist w) ->
  ang (matToAA (lin (rel (faMfbDes (I t)) (pose_faMfb (I t))))) < PI ->
  (r = SE3 \/ w = v0 \/ trn (pose_faMfb (I t)) = trn (faMfbDes (I t)) \/ (3 <= j)%nat) ->
  nth_error (chosen fl 6) k = Some j ->
  derivable_pt_lim (fun s => nth k (vals (pose_error g r fl (I s))) 0) t
    (dotR (nth k (vals (pose_jacobian gj r fl (I t))) []) qd
     + nth k (vals (pose_errordot ge r fl (I t))) 0).
Proof.
  intros HM VD EN HA Hc Ek. destruct r.
  - now apply (pose_rate_SE3 g gj ge fl I t qd v w k j).
  - pose proof (pose_rate_R3xSO3_partial g gj ge fl I t qd v w k j HM VD EN HA Ek) as P.
    replace (v6at (lag R3xSO3 (I t) w) j) with 0 in P; [now rewrite Rplus_0_r in P|].
    assert (Z : forall i, v3at v0 i = 0) by (intros [|[|]]; reflexivity).
    destruct Hc as [Hc | [-> | [Hc | Hc]]]; [discriminate Hc| | |].
    + unfold v6at, lag. cbn [fst snd]. replace (cross v0 _) with v0 by (apply vec3_ext; unfold cross, v0; gcbn; ring).
      rewrite !Z. now destruct (j <? 3)%nat.
    + unfold v6at, lag. cbn [fst snd]. rewrite Hc. replace (cross w _) with v0 by (apply vec3_ext; unfold cross, vsub, v0; gcbn; ring).
      rewrite !Z. now destruct (j <? 3)%nat.
    + unfold v6at, lag. cbn [fst snd]. destruct (Nat.ltb_spec j 3); [lia|]. now rewrite Z.
Qed.

(** Without a reference velocity the error derivative is zero. *)
Theorem pose_errordot_unplugged g r fl i : faNu i = None ->
  pose_errordot g r fl i = Ok (repeat 0 (length (chosen fl 6))).
Proof. intros E. unfold pose_errordot. rewrite pose_dimension_ok, E. reflexivity. Qed.

(** Jacobians with different numbers of columns are an error as soon as a
    component is selected. *)
Theorem pose_columns_refuted g r fl i ja : rigid_in i -> jaJja i = Some ja -> chosen fl 6 <> [] ->
  length ja <> length (jbJjb i) -> pose_jacobian g r fl i = UB.
Proof.
  intros Hi Ej Hc Hl. unfold pose_jacobian. rewrite pose_dimension_ok, faRfb_lin by exact Hi. cbn [bind].
  fold (pose_twist_b r i). fold (pose_twist_a r i).
  rewrite (collect_full fl _ (jrow (tjac (pose_twist_b r i) (jbJjb i)))); [|reflexivity|now rewrite repeat_length].
  cbn [bind]. rewrite Ej.
  set (h := jrow (tjac (pose_twist_b r i) (jbJjb i))). set (f := jrow (tjac (pose_twist_a r i) ja)).
  assert (N : forall k, length (h k) <> length (f k)).
  { intros k. unfold h, f, jrow, tjac. rewrite !map_length. auto. }
  assert (RS : forall a b, length a <> length b -> row_sub a b = UB).
  { clear. induction a as [|x a IH]; intros [|y b] E; try reflexivity; [now elim E|].
    cbn [row_sub]. rewrite IH; [reflexivity|]. cbn in E. lia. }
  assert (F : forall l, filter (flag fl) l <> [] -> forall J, J = map h (filter (flag fl) l) ->
     ofold (sub_step fl f) l (0%nat, J) = UB).
  { induction l as [|k l IH]; intros Nl J EJ; [now elim Nl|]. cbn [ofold filter] in *.
    unfold sub_step at 1. rewrite at_flag. cbn [bind]. destruct (flag fl k).
    - subst J. cbn [map vget nth_error bind]. unfold vget. cbn [nth_error bind]. rewrite RS by apply N. reflexivity.
    - apply IH; assumption. }
  unfold chosen in *. rewrite (F (seq 0 6) Hc _ eq_refl). reflexivity.
Qed.

(** ** C93: keep *)
Lemma rel_hid_log6 m : is_rigid m -> log6 (rel m m) = (v0, v0).
Proof.
  intros Hm. rewrite (rel_self m Hm). unfold log6, hid. cbn [lin trn]. rewrite rotvec_id, mapp_v0. reflexivity.
Qed.
Theorem pose_keep_ok g r fl i : rigid_in i ->
  rigid_in (pose_keep i) /\ pose_faMfb (pose_keep i) = pose_faMfb i /\ faMfbDes (pose_keep i) = pose_faMfb i /\
  pose_error g r fl (pose_keep i) = Ok (repeat 0 (length (chosen fl 6))).
Proof.
  intros Hi. pose proof (faMfb_rigid i Hi) as HX.
  assert (HK : rigid_in (pose_keep i)) by (destruct Hi as (A & B & C & D & E); exact (conj A (conj B (conj C (conj D HX))))).
  split; [exact HK|]. split; [reflexivity|]. split; [reflexivity|].
  rewrite pose_error_ok by exact HK. f_equal.
  assert (E : error_of r (faMfbDes (pose_keep i)) (pose_faMfb (pose_keep i)) = (v0, v0)).
  { change (error_of r (pose_faMfb i) (pose_faMfb i) = (v0, v0)). destruct r; cbn [error_of].
    - now apply rel_hid_log6.
    - rewrite (rot_mT_l _ HX), rotvec_id. f_equal. destruct (trn (pose_faMfb i)). unfold vsub, v0. gcbn. f_equal; ring. }
  rewrite E. rewrite <- (map_const 0 (chosen fl 6)). apply map_ext. intros k. unfold v6at. cbn [fst snd].
  destruct (k <? 3)%nat; [destruct k as [|[|]]|destruct (k - 3)%nat as [|[|]]]; reflexivity.
Qed.

(** ** C94: closed loop *)
Lemma exp_decrease (f : R -> R) lam T : 0 <= T ->
  (forall s, 0 <= s <= T -> derivable_pt_lim f s (- lam * f s)) ->
  forall s, 0 <= s <= T -> f s = exp (- lam * s) * f 0.
Proof.
  intros HT D s [A B].
  assert (E : exp (lam * s) * f s = exp (lam * 0) * f 0).
  { destruct (Rle_lt_or_eq_dec _ _ A) as [A'|<-]; [|reflexivity].
    assert (DE : forall x, derivable_pt_lim (fun y => exp (lam * y)) x (exp (lam * x) * lam)).
    { intros x. apply (derivable_pt_lim_comp (fun y => lam * y) exp).
      - pose proof (derivable_pt_lim_scal id lam x 1 (derivable_pt_lim_id x)) as P. rewrite Rmult_1_r in P. exact P.
      - apply derivable_pt_lim_exp. }
    destruct (MVT_cor2 (fun y => exp (lam * y) * f y) (fun y => exp (lam * y) * lam * f y + exp (lam * y) * (- lam * f y)) 0 s A')
      as (c & Ec & _).
    { intros c Hc. apply (deriv_mult (fun y => exp (lam * y)) f c _ _ (DE c)). apply D. lra. }
    cbv beta in Ec. replace (exp (lam * c) * lam * f c + exp (lam * c) * (- lam * f c)) with 0 in Ec by ring. lra. }
  rewrite Rmult_0_r, exp_0, Rmult_1_l in E. rewrite <- E, <- Rmult_assoc, <- exp_plus.
  replace (- lam * s + lam * s) with 0 by ring. rewrite exp_0. ring.
Qed.

Definition with_nu (i : pose_in) (l : option (list R)) : pose_in :=
  mkPoseIn (oMja i) (jaMfa i) (oMjb i) (jbMfb i) (jaJja i) (jbJjb i) (faMfbDes i) l.

Lemma still_spatial (M : R -> hom) t : (forall s, M s = M t) -> spatial_velocity M t (v0, v0).
Proof.
  intros E. split; cbn [fst snd].
  - eapply vderiv_eq; [| |apply (vderiv_const (trn (M t)))].
    + intros s. cbv beta. now rewrite (E s).
    + apply vec3_ext; unfold vadd, cross, v0; gcbn; ring.
  - eapply mderiv_eq; [| |apply (mderiv_const (lin (M t)))].
    + intros s. cbv beta. now rewrite (E s).
    + rewrite skew_v0, mmul_zero_l. reflexivity.
Qed.

(** With a still reference the error changes as the jacobian says. *)
Theorem pose_rate_still g gj r fl (I : R -> pose_in) t qd k j :
  moves I t qd -> (forall s, faMfbDes (I s) = faMfbDes (I t)) ->
  ang (matToAA (lin (rel (faMfbDes (I t)) (pose_faMfb (I t))))) < PI ->
  nth_error (chosen fl 6) k = Some j ->
  derivable_pt_lim (fun s => nth k (vals (pose_error g r fl (I s))) 0) t
    (dotR (nth k (vals (pose_jacobian gj r fl (I t))) []) qd).
Proof.
  intros HM HD HA Ek. set (z := Some (vlist v0 ++ vlist v0)). set (I' := fun s => with_nu (I s) z).
  pose proof (pose_rate_exact g gj 0 r fl I' t qd v0 v0 k j HM (still_spatial _ t HD) eq_refl HA
    (or_intror (or_introl eq_refl)) Ek) as P.
  assert (Z : nth k (vals (pose_errordot 0 r fl (I' t))) 0 = 0).
  { unfold pose_errordot. rewrite pose_dimension_ok. cbn [bind]. change (faNu (I' t)) with z. unfold z.
    change (get6 (vlist v0 ++ vlist v0)) with (Ok (v0, v0)). cbn [bind].
    erewrite collect_full; [|reflexivity|now rewrite repeat_length]. cbn [vals]. rewrite (nth_map_chosen _ 0 fl k j Ek).
    set (J0 := lg_dDiff0 _ _ _).
    assert (C : convertVelocity r (pose_faMfb (I' t)) (faMfbDes (I' t)) (v0, v0) = (v0, v0)).
    { destruct r; unfold convertVelocity.
      - rewrite adj_inv by apply (proj1 HM). cbn [fst snd].
        replace (vadd v0 (cross v0 _)) with v0 by (apply vec3_ext; unfold vadd, cross, v0; gcbn; ring). now rewrite mapp_v0.
      - cbn [fst snd]. rewrite mapp_v0. f_equal. apply vec3_ext; unfold vsub, cross, v0; gcbn; ring. }
    rewrite C. unfold tapp. cbn [fst snd]. rewrite !mapp_v0. unfold v6at. cbn [fst snd].
    replace (vadd v0 v0) with v0 by (apply vec3_ext; unfold vadd, v0; gcbn; ring).
    destruct (j <? 3)%nat; [destruct j as [|[|]]|destruct (j - 3)%nat as [|[|]]]; reflexivity. }
  rewrite Z, Rplus_0_r in P. exact P.
Qed.

(** A new feature has a still reference: its error derivative is null until a velocity of the
    reference is given. *)
Theorem pose_default_errordot g r fl m j : is_rigid m ->
  pose_errordot g r fl (pose_defaults m j) = Ok (repeat 0 (length (chosen fl 6))).
Proof.
  intros Hm. unfold pose_errordot. rewrite pose_dimension_ok. cbn [bind pose_defaults faNu].
  change (get6 [0; 0; 0; 0; 0; 0]) with (Ok (v0, v0)). cbn [bind].
  erewrite collect_full; [|reflexivity|now rewrite repeat_length].
  set (J0 := lg_dDiff0 _ _ _).
  assert (C : convertVelocity r (pose_faMfb (pose_defaults m j)) (faMfbDes (pose_defaults m j)) (v0, v0) = (v0, v0)).
  { destruct r; unfold convertVelocity.
    - rewrite adj_inv by exact rot_id. cbn [fst snd].
      replace (vadd v0 (cross v0 _)) with v0 by (apply vec3_ext; unfold vadd, cross, v0; gcbn; ring). now rewrite mapp_v0.
    - cbn [fst snd]. rewrite mapp_v0. f_equal. apply vec3_ext; unfold vsub, cross, v0; gcbn; ring. }
  change (faMfbDes (pose_defaults m j)) with hid in C |- *.
  rewrite C. unfold tapp. cbn [fst snd]. rewrite !mapp_v0.
  replace (vadd v0 v0) with v0 by (apply vec3_ext; unfold vadd, v0; gcbn; ring).
  f_equal. generalize (chosen fl 6). induction l as [|x l IH]; [reflexivity|].
  cbn [map length repeat]. rewrite IH. f_equal. unfold v6at. cbn [fst snd].
  destruct (x <? 3)%nat; [destruct x as [|[|]]|destruct (x - 3)%nat as [|[|]]]; reflexivity.
Qed.

(** The task is executed on [0, T] with gain [lam]: the joint velocity makes
    the jacobian give minus the gain times the error. *)
Definition executed (r : repr) (fl : Flags) (I : R -> pose_in) (qd : R -> list R) (lam T : R) : Prop :=
  (forall s, faMfbDes (I s) = faMfbDes (I 0)) /\
  forall s, 0 <= s <= T ->
    moves I s (qd s) /\
    ang (matToAA (lin (rel (faMfbDes (I s)) (pose_faMfb (I s))))) < PI /\
    forall k, (k < length (chosen fl 6))%nat ->
      dotR (nth k (vals (pose_jacobian [] r fl (I s))) []) (qd s)
      = - lam * nth k (vals (pose_error 0 r fl (I s))) 0.

(** Every selected component of the error decreases exponentially. *)
Theorem pose_decrease r fl I qd lam T : 0 <= T -> executed r fl I qd lam T ->
  forall s k, 0 <= s <= T -> (k < length (chosen fl 6))%nat ->
  nth k (vals (pose_error 0 r fl (I s))) 0 = exp (- lam * s) * nth k (vals (pose_error 0 r fl (I 0))) 0.
Proof.
  intros HT [HD HE] s k Hs Hk.
  destruct (nth_error (chosen fl 6) k) as [j|] eqn:Ek; [|apply nth_error_None in Ek; lia].
  apply (exp_decrease (fun s => nth k (vals (pose_error 0 r fl (I s))) 0) lam T HT); [|exact Hs].
  intros u Hu. destruct (HE u Hu) as (HM & HA & HJ).
  rewrite <- (HJ k Hk). apply (pose_rate_still 0 [] r fl I u (qd u) k j HM); auto.
  intros x. now rewrite !HD.
Qed.

(** R3xSO3: the controlled frame goes straight to the desired position. *)
Theorem pose_straight_line fl I qd lam T : 0 <= T -> executed R3xSO3 fl I qd lam T ->
  at_ fl 0 = Ok true -> at_ fl 1 = Ok true -> at_ fl 2 = Ok true ->
  forall s, 0 <= s <= T ->
  let des := trn (faMfbDes (I 0)) in
  trn (pose_faMfb (I s)) = vadd des (vscal (exp (- lam * s)) (vsub (trn (pose_faMfb (I 0))) des)).
Proof.
  intros HT HX F0 F1 F2 s Hs des.
  assert (HR : forall s, rigid_in (I s)).
  { destruct HX as [_ HE]. destruct (HE 0) as ((A & _) & _); [lra|exact A]. }
  assert (Fl : flag fl 0 = true /\ flag fl 1 = true /\ flag fl 2 = true).
  { pose proof (at_flag fl 0) as A0. pose proof (at_flag fl 1) as A1. pose proof (at_flag fl 2) as A2.
    cbn [Z.of_nat Pos.of_succ_nat Pos.succ] in A0, A1, A2.
    rewrite F0 in A0. rewrite F1 in A1. rewrite F2 in A2. injection A0 as <-. injection A1 as <-. injection A2 as <-. auto. }
  destruct Fl as (E0 & E1 & E2).
  assert (Ch : exists l, chosen fl 6 = 0%nat :: 1%nat :: 2%nat :: l).
  { unfold chosen. cbn [seq filter]. rewrite E0, E1, E2. eexists. reflexivity. }
  destruct Ch as (l & Ch).
  assert (C : forall i, (i < 3)%nat ->
     v3at (vsub (trn (pose_faMfb (I s))) des) i = exp (- lam * s) * v3at (vsub (trn (pose_faMfb (I 0))) des) i).
  { intros i Hi. pose proof (pose_decrease _ _ _ _ _ _ HT HX s i Hs) as P. rewrite Ch in P. cbn [length] in P. specialize (P ltac:(lia)).
    rewrite !pose_error_ok in P by apply HR. cbn [vals] in P.
    rewrite !(nth_map_chosen _ 0 fl i i) in P by (rewrite Ch; destruct i as [|[|[|i]]]; [reflexivity..|lia]).
    cbn [error_of] in P. unfold v6at in P. destruct (Nat.ltb_spec i 3); [|lia]. cbn [fst] in P.
    rewrite (proj1 HX s) in P. exact P. }
  pose proof (C 0%nat ltac:(lia)) as X. pose proof (C 1%nat ltac:(lia)) as Y. pose proof (C 2%nat ltac:(lia)) as Z.
  cbn [v3at] in X, Y, Z. clearbody des. clear - X Y Z.
  apply vec3_ext; unfold vadd, vscal, vsub in *; cbn [vx vy vz] in *.
  - rewrite <- X. ring.
  - rewrite <- Y. ring.
  - rewrite <- Z. ring.
Qed.

(** ** The velocity of the reference of R3xSO3 is taken at the wrong point *)
Definition lag_I (s : R) : pose_in :=
  mkPoseIn hid hid (H mid unitY) hid None [] (H (aaToMat (AA s unitX)) v0) (Some [0; 0; 0; 1; 0; 0]).

Lemma ang_mid : ang (matToAA mid) = 0.
Proof.
  rewrite (angle_acos mid rot_id). unfold mtr, mid. gcbn. replace ((1 + 1 + 1 - 1) / 2) with 1 by field. apply acos_1.
Qed.
Lemma rigid_hid : is_rigid hid.
Proof. exact rot_id. Qed.

Lemma lag_moves : moves lag_I 0 [].
Proof.
  split; [|split; [|split; [|split]]]; try reflexivity.
  - intros s. split; [exact rot_id|]. split; [exact rot_id|]. split; [exact rot_id|]. split; [exact rot_id|].
    apply aaToMat_rot. exact unitX_unit.
  - apply still_body. reflexivity.
  - cbn [jaJja lag_I]. apply still_body. reflexivity.
Qed.
Lemma lag_spatial : spatial_velocity (fun s => faMfbDes (lag_I s)) 0 (v0, unitX).
Proof.
  split; cbn [fst snd faMfbDes lag_I lin trn].
  - eapply vderiv_eq; [| |exact (vderiv_const v0 0)]; [reflexivity|]. apply vec3_ext; unfold vadd, cross, unitX, v0; gcbn; ring.
  - rewrite no_turn, mmul_1_r. exact spin_x.
Qed.
Lemma lag_angle : ang (matToAA (lin (rel (faMfbDes (lag_I 0)) (pose_faMfb (lag_I 0))))) < PI.
Proof.
  rewrite rel_lin by (apply aaToMat_rot; exact unitX_unit). cbn [faMfbDes lag_I lin]. rewrite no_turn.
  rewrite <- faRfb_lin by apply (proj1 lag_moves). cbn [lag_I jaMfa oMja oMjb jbMfb lin hid].
  assert (E : mT mid = mid) by (unfold mT, mid; gcbn; reflexivity). rewrite E, !mmul_1_r, ang_mid. apply PI_RGT_0.
Qed.

Theorem pose_reference_rate_refuted :
  exists I qd v w, moves I 0 qd /\ spatial_velocity (fun s => faMfbDes (I s)) 0 (v, w) /\
    faNu (I 0) = Some (vlist v ++ vlist w) /\
    ang (matToAA (lin (rel (faMfbDes (I 0)) (pose_faMfb (I 0))))) < PI /\
    forall g gj ge, ~ derivable_pt_lim (fun s => nth 2 (vals (pose_error g R3xSO3 (mkFlags [] true) (I s))) 0) 0
      (dotR (nth 2 (vals (pose_jacobian gj R3xSO3 (mkFlags [] true) (I 0))) []) qd
       + nth 2 (vals (pose_errordot ge R3xSO3 (mkFlags [] true) (I 0))) 0).
Proof.
  exists lag_I, [], v0, unitX. split; [exact lag_moves|]. split; [exact lag_spatial|]. split; [reflexivity|]. split; [exact lag_angle|].
  intros g gj ge D.
  pose proof (pose_rate_R3xSO3_partial g gj ge (mkFlags [] true) lag_I 0 [] v0 unitX 2 2 lag_moves lag_spatial eq_refl lag_angle eq_refl) as D'.
  pose proof (uniqueness_limite _ _ _ _ D D') as E.
  assert (L : v6at (lag R3xSO3 (lag_I 0) unitX) 2 = 0) by lra.
  unfold lag, v6at in L. cbn [Nat.ltb Nat.leb fst v3at] in L.
  rewrite faMfb_rel, rel_trn in L by (apply rigid_mul; exact rot_id).
  cbn [lag_I oMja jaMfa oMjb jbMfb faMfbDes hmul lin trn hid] in L.
  unfold hmul, hid, mid, unitX, unitY, v0, mapp, mT, mmul, vadd, vsub, cross in L. cbn [vx vy vz m00 m01 m02 m10 m11 m12 m20 m21 m22 lin trn] in L. lra.
Qed.

(** ** Non-vacuity *)
Definition pex (s : R) : pose_in :=
  mkPoseIn (H (aaToMat (AA s unitX)) v0) (H mid unitY) (H mid (V3 s 0 0)) (H mid unitZ)
    (Some [(v0, unitX); (v0, v0)]) [(v0, v0); (unitX, v0)] (H (aaToMat (AA s unitX)) (V3 0 0 2)) (Some [0; 2; 0; 1; 0; 0]).
Example pose_moves_example : moves pex 0 [1; 1].
Proof.
  assert (RX : forall s, is_rot (aaToMat (AA s unitX))) by (intros s; apply aaToMat_rot; exact unitX_unit).
  assert (EJ : jvel [(v0, v0); (unitX, v0)] [1; 1] = (unitX, v0) /\ jvel [(v0, unitX); (v0, v0)] [1; 1] = (v0, unitX)).
  { split; cbn [jvel fst snd]; unfold v0, unitX, vadd, vscal; gcbn; f_equal; f_equal; ring. }
  destruct EJ as [E1 E2].
  split; [|split; [|split; [|split]]]; try reflexivity.
  - intros s. split; [apply RX|]. split; [exact rot_id|]. split; [exact rot_id|]. split; [exact rot_id|]. apply RX.
  - cbn [pex jbJjb oMjb]. rewrite E1. split; cbn [fst snd lin trn].
    + rewrite mapp_id. unfold vderiv, unitX. gcbn. split; [apply derivable_pt_lim_id|]. split; apply derivable_pt_lim_const.
    + rewrite skew_v0, mmul_zero_r. exact (mderiv_const mid 0).
  - cbn [pex jaJja oMja jbJjb]. rewrite E2. split; [reflexivity|]. split; cbn [fst snd lin trn].
    + rewrite mapp_v0. exact (vderiv_const v0 0).
    + rewrite no_turn, mmul_1_l. exact spin_x.
Qed.
(** The desired frame, at height 2, turns about the x axis of an axis through the origin: its origin is given
    velocity (0, 2, 0) + w x t = (0, 0, 0). *)
Example pose_reference_example : spatial_velocity (fun s => faMfbDes (pex s)) 0 (V3 0 2 0, unitX) /\
  faNu (pex 0) = Some (vlist (V3 0 2 0) ++ vlist unitX).
Proof.
  split; [|reflexivity]. split; cbn [fst snd faMfbDes pex lin trn].
  - eapply vderiv_eq; [| |exact (vderiv_const (V3 0 0 2) 0)]; [reflexivity|]. apply vec3_ext; unfold vadd, cross, unitX, v0; gcbn; ring.
  - rewrite no_turn, mmul_1_r. exact spin_x.
Qed.
Example pose_angle_example : ang (matToAA (lin (rel (faMfbDes (pex 0)) (pose_faMfb (pex 0))))) < PI.
Proof.
  rewrite rel_lin by (apply aaToMat_rot; exact unitX_unit). cbn [faMfbDes pex lin]. rewrite no_turn.
  rewrite <- faRfb_lin by apply (proj1 pose_moves_example). cbn [pex jaMfa oMja oMjb jbMfb lin]. rewrite no_turn.
  assert (E : mT mid = mid) by (unfold mT, mid; gcbn; reflexivity). rewrite E, !mmul_1_r, ang_mid. apply PI_RGT_0.
Qed.

(** A loop closed on one joint that slides along x: the distance decreases as exp(- lam s). *)
Definition sex (s : R) : pose_in :=
  mkPoseIn hid hid (H mid (V3 (exp (- s)) 0 0)) hid None [(unitX, v0)] hid None.
Example pose_executed_example : executed R3xSO3 (mkFlags [] true) sex (fun s => [- exp (- s)]) 1 1.
Proof.
  assert (HM : forall s, moves sex s [- exp (- s)]).
  { intros t. split; [|split; [|split; [|split]]]; try reflexivity.
    - intros s. repeat (split; [exact rot_id|]). exact rot_id.
    - cbn [sex jbJjb oMjb].
      replace (jvel [(unitX, v0)] [- exp (- t)]) with (vscal (- exp (- t)) unitX, v0)
        by (cbn [jvel fst snd]; unfold v0, unitX, vadd, vscal; gcbn; f_equal; f_equal; ring).
      split; cbn [fst snd lin trn].
      + rewrite mapp_id. unfold vderiv, unitX, vscal. gcbn.
        split; [|rewrite Rmult_0_r; split; apply derivable_pt_lim_const].
        rewrite Rmult_1_r. replace (- exp (- t)) with (exp (- t) * -1) by ring.
        apply (derivable_pt_lim_comp (fun y => - y) exp); [|apply derivable_pt_lim_exp].
        apply (derivable_pt_lim_opp id). apply derivable_pt_lim_id.
      + rewrite skew_v0, mmul_zero_r. exact (mderiv_const mid t).
    - cbn [sex jaJja]. apply still_body. reflexivity. }
  assert (FM : forall s, pose_faMfb (sex s) = H mid (V3 (exp (- s)) 0 0)).
  { intros s. unfold pose_faMfb. cbn [sex oMja jaMfa oMjb jbMfb]. rewrite !hmul_id_r, hinv_hid, hmul_id_l. reflexivity. }
  assert (RL : forall s, rel (faMfbDes (sex s)) (pose_faMfb (sex s)) = H mid (V3 (exp (- s)) 0 0)).
  { intros s. rewrite FM. cbn [sex faMfbDes]. unfold rel. now rewrite hinv_hid, hmul_id_l. }
  split; [reflexivity|]. intros s Hs. split; [apply HM|]. split.
  { rewrite RL. cbn [lin]. rewrite ang_mid. apply PI_RGT_0. }
  intros k Hk. destruct (nth_error (chosen (mkFlags [] true) 6) k) as [j|] eqn:Ek; [|apply nth_error_None in Ek; lia].
  rewrite (jacobian_dot _ _ _ _ _ _ _ _ (HM s) Ek), pose_error_ok by apply (proj1 (HM s)). cbn [vals].
  rewrite (nth_map_chosen _ 0 _ k j Ek).
  assert (N : nuX sex s [- exp (- s)] = (vscal (- exp (- s)) unitX, v0)).
  { unfold nuX. cbv zeta. cbn [sex jaJja jbJjb jbMfb jaMfa]. rewrite adj_inv by exact rot_id.
    unfold v6sub. cbn [fst snd jvel lin trn hid]. unfold mapp, mT, mid, hid, v0, unitX, vadd, vscal, cross, vsub. gcbn.
    f_equal; f_equal; ring. }
  rewrite N, FM. cbn [lin fst snd]. unfold lg_dDiff1. rewrite !vector_roundtrip by exact rot_id.
  unfold tapp. cbn [b00 b01 b10 b11 fst snd]. rewrite !mapp_id, !mapp_zero, mapp_v0. cbn [error_of sex faMfbDes lin trn hid].
  unfold hid. cbn [lin trn]. rewrite mmul_1_r. assert (E : mT mid = mid) by (unfold mT, mid; gcbn; reflexivity). rewrite E, rotvec_id.
  unfold v6at. cbn [fst snd]. unfold vadd, vscal, unitX, v0, vsub. gcbn.
  destruct (j <? 3)%nat; [destruct j as [|[|]]|destruct (j - 3)%nat as [|[|]]]; cbn [v3at vx vy vz]; ring.
Qed.

Print Assumptions pose_dimension_ok.
Print Assumptions pose_relative.
Print Assumptions pose_error_ok.
Print Assumptions pose_error_zero.
Print Assumptions pose_default_error.
Print Assumptions pose_rate_SE3.
Print Assumptions pose_rate_R3xSO3_partial.
Print Assumptions pose_rate_exact.
Print Assumptions pose_errordot_unplugged.
Print Assumptions pose_columns_refuted.
Print Assumptions pose_keep_ok.
Print Assumptions pose_rate_still.
Print Assumptions pose_decrease.
Print Assumptions pose_straight_line.
Print Assumptions pose_reference_rate_refuted.
Print Assumptions pose_default_errordot.
