(** C95-C96: FeaturePoint6dRelative. *)
From Coq Require Import String List Arith Lia ZArith Bool Reals Lra Psatz.
From Verif Require Import Base Flags_Model Feature_Model Feature_Proofs Geom_Model Geom_Facts
  Geom_Rot Geom_Props OpPoint_Model OpPoint_Props Rodr_Facts Rel_Facts Log6_Facts
  Point6d_Model Point6d_Props Pose_Model Pose_Props Rel6_Model.
Import ListNotations.
Local Open Scope R_scope.

(** ** Specification *)
(** The wanted pose of the second frame seen from the first: that of the
    reference feature, or the identity when there is none or it cannot be
    read. *)
Definition wanted (ref : option ref6) : hom :=
  match ref with
  | Some (RelRef (Some a) (Some b)) => rel a b
  | Some (PoseRef (Some m)) => m
  | _ => hid
  end.
(** The motion from the wanted pose to the actual one. *)
Definition gap (a b : hom) (ref : option ref6) : hom := hmul (rel a b) (hinv (wanted ref)).

Lemma Merr_gap a b ref : rel6_Merr a b ref = gap a b ref.
Proof.
  unfold rel6_Merr, gap, wanted, rel6_pMpref, rel.
  destruct ref as [[[?|] [?|]|[?|]]|]; try reflexivity; now rewrite hinv_hid, hmul_id_r.
Qed.

(** ** C95: the error *)
Theorem relative6_error g fl a b ref :
  rel6_error g fl (length (chosen fl 6)) a b ref
  = Ok (map (v6at (pose6 (gap a b ref))) (chosen fl 6)).
Proof.
  unfold rel6_error. rewrite Merr_gap. set (X := gap a b ref).
  destruct (two_loops fl (v3at (trn X)) (fun i => ang (matToAA (lin X)) *
     v3at (axis (matToAA (lin X))) (i - 3)) g) as (e1 & c1 & E1 & (c2 & E2) & _).
  cbv zeta in *. rewrite E1. cbn [bind]. rewrite E2. cbn [bind]. f_equal.
  apply map_ext. intros i. unfold v6at, pose6, rotvec. cbn [fst snd].
  destruct (i <? 3)%nat; [reflexivity|]. symmetry. apply v3at_vscal.
Qed.

Definition rigid_ref (ref : option ref6) : Prop := is_rigid (wanted ref).

(** Everything selected: the error is zero exactly when the second frame, seen
    from the first, is where the reference wants it. *)
Theorem relative6_error_zero g fl a b ref : is_rigid a -> is_rigid b -> rigid_ref ref ->
  (forall k, (k < 6)%nat -> at_ fl (Z.of_nat k) = Ok true) ->
  rel6_error g fl 6 a b ref = Ok [0; 0; 0; 0; 0; 0] <-> rel a b = wanted ref.
Proof.
  intros Ha Hb Hr Hf.
  assert (F : forall k, (k < 6)%nat -> flag fl k = true).
  { intros k Hk. pose proof (at_flag fl k) as P. rewrite (Hf k Hk) in P. now injection P. }
  assert (C : chosen fl 6 = [0; 1; 2; 3; 4; 5]%nat).
  { unfold chosen. cbn [seq filter]. rewrite !F by lia. reflexivity. }
  pose proof (relative6_error g fl a b ref) as E. rewrite C in E. cbn [length map] in E. rewrite E.
  assert (HX : is_rigid (rel a b)) by (apply rel_rigid; auto).
  unfold v6at, pose6. cbn [Nat.ltb Nat.leb Nat.sub fst snd v3at].
  split.
  - intros Q. assert (Q' : [vx (trn (gap a b ref)); vy (trn (gap a b ref)); vz (trn (gap a b ref));
      vx (rotvec (lin (gap a b ref))); vy (rotvec (lin (gap a b ref))); vz (rotvec (lin (gap a b ref)))]
      = [0; 0; 0; 0; 0; 0]) by congruence. clear Q E.
    assert (HG : is_rigid (gap a b ref)).
    { unfold gap. apply rot_mul; [exact HX|]. unfold hinv. cbn [lin]. rewrite (rot_inv _ Hr). apply rot_T, Hr. }
    assert (G : gap a b ref = hid).
    { set (G := gap a b ref) in *. destruct G as [L T]. cbn [lin trn] in *.
      assert (L = mid).
      { apply rotvec_zero; [exact HG|]. apply vec3_ext;
          [exact (f_equal (fun l => nth 3 l 0) Q')|exact (f_equal (fun l => nth 4 l 0) Q')|exact (f_equal (fun l => nth 5 l 0) Q')]. }
      assert (T = v0).
      { apply vec3_ext;
          [exact (f_equal (fun l => nth 0 l 0) Q')|exact (f_equal (fun l => nth 1 l 0) Q')|exact (f_equal (fun l => nth 2 l 0) Q')]. }
      subst. reflexivity. }
    unfold gap in G. transitivity (hmul (hmul (rel a b) (hinv (wanted ref))) (wanted ref)).
    + rewrite <- hmul_assoc, hmul_inv_l by exact Hr. now rewrite hmul_id_r.
    + rewrite G. apply hmul_id_l.
  - intros Q. unfold gap. rewrite Q, hmul_inv_r by exact Hr. unfold hid. cbn [lin trn].
    rewrite rotvec_id. reflexivity.
Qed.

(** initSdes on a relative feature: the error becomes zero, and only a change
    of the relative pose changes it. *)
Theorem relative6_init g fl a b : is_rigid a -> is_rigid b ->
  exists ref, rel6_initSdes (Some true) a b = Ok (Some ref) /\
  rel6_error g fl (length (chosen fl 6)) a b (Some ref) = Ok (repeat 0 (length (chosen fl 6))) /\
  forall m, is_rigid m ->
    rel6_error g fl (length (chosen fl 6)) (hmul m a) (hmul m b) (Some ref)
    = Ok (repeat 0 (length (chosen fl 6))).
Proof.
  intros Ha Hb. eexists. split; [reflexivity|].
  assert (Z : forall x y, rel x y = rel a b ->
    rel6_error g fl (length (chosen fl 6)) x y (Some (RelRef (Some a) (Some b)))
    = Ok (repeat 0 (length (chosen fl 6)))).
  { intros x y E. rewrite relative6_error. f_equal. unfold gap. cbn [wanted]. rewrite E.
    rewrite hmul_inv_r by (apply rel_rigid; assumption).
    rewrite <- map_const. apply map_ext. intros i. unfold pose6, hid. cbn [lin trn]. rewrite rotvec_id.
    unfold v6at. cbn [fst snd]. destruct (i <? 3)%nat; [destruct i as [|[|]]|destruct (i - 3)%nat as [|[|]]]; reflexivity. }
  split; [apply Z; reflexivity|]. intros m Hm. apply Z. unfold rel.
  rewrite hinv_hmul by assumption. rewrite <- hmul_assoc. f_equal.
  rewrite hmul_assoc, hmul_inv_l by exact Hm. apply hmul_id_l.
Qed.

(** A name that is not that of a relative feature is refused. *)
Theorem relative6_init_refused sdes a b : sdes <> Some true ->
  exists e, rel6_initSdes sdes a b = Throw e.
Proof. intros H. destruct sdes as [[|]|]; [congruence|eexists; reflexivity..]. Qed.

(** ** C96: the jacobian *)
Lemma jac_sub_ok a : forall b, length a = length b ->
  exists j, jac_sub a b = Ok j /\ forall qd, jvel j qd = v6sub (jvel a qd) (jvel b qd).
Proof.
  induction a as [|x a IH]; intros [|y b] L; try discriminate L; cbn [jac_sub].
  - exists []. split; [reflexivity|]. intros qd. unfold v6sub. cbn [jvel fst snd].
    apply pair_ext; cbn [fst snd]; apply vec3_ext; unfold vsub, v0; gcbn; ring.
  - destruct (IH b) as (j & E & V); [cbn in L; lia|]. rewrite E. cbn [bind]. eexists. split; [reflexivity|].
    intros [|q qd]; cbn [jvel].
    + unfold v6sub. cbn [fst snd].
      apply pair_ext; cbn [fst snd]; apply vec3_ext; unfold vsub, v0; gcbn; ring.
    + rewrite V. unfold v6sub. cbn [fst snd].
      apply pair_ext; cbn [fst snd]; apply vec3_ext; unfold vsub, vadd, vscal; gcbn; ring.
Qed.

Lemma jac_sub_bad a : forall b, length a <> length b -> jac_sub a b = UB.
Proof.
  induction a as [|x a IH]; intros [|y b] L; cbn in L |- *; try congruence; try reflexivity.
  rewrite IH by congruence. reflexivity.
Qed.

(** Jacobians with different numbers of columns are outside the contract of
    the matrix library. *)
Theorem relative6_columns g fl dim a b Jq JqRef : length JqRef <> length Jq ->
  rel6_jacobian g fl dim a b Jq JqRef = UB.
Proof.
  intros L. unfold rel6_jacobian. rewrite jac_sub_bad; [reflexivity|]. unfold tjac. now rewrite map_length.
Qed.

Lemma body_spatial M t n : is_rigid (M t) -> body_velocity M t n ->
  spatial_velocity M t (tapp (buildFrom (M t)) n).
Proof.
  intros HM [P Q]. destruct n as [v w]. unfold tapp, buildFrom. cbn [b00 b01 b10 b11 fst snd] in *.
  assert (Z : vadd (mapp mzero v) (mapp (lin (M t)) w) = mapp (lin (M t)) w).
  { rewrite mapp_zero. apply vadd_v0_l. }
  unfold spatial_velocity. cbn [fst snd]. rewrite Z. split.
  - eapply vderiv_eq; [reflexivity| |exact P]. cbv beta. rewrite mapp_mmul, skew_app.
    destruct (mapp (lin (M t)) v), (mapp (lin (M t)) w), (trn (M t)).
    unfold vadd, cross. gcbn. f_equal; ring.
  - eapply mderiv_eq; [reflexivity| |exact Q]. cbv beta. rewrite (skew_rot _ _ HM). do 2 f_equal.
    rewrite <- mapp_mmul, (rot_mT_l _ HM). symmetry. apply mapp_id.
Qed.

Lemma spatial_right M C t n : spatial_velocity M t n ->
  spatial_velocity (fun s => hmul (M s) C) t n.
Proof.
  intros [P Q]. unfold spatial_velocity, hmul. cbn [lin trn]. split.
  - eapply vderiv_eq; [reflexivity| |apply vderiv_add; [apply mderiv_mapp, Q|exact P]].
    cbv beta. rewrite mapp_mmul, skew_app.
    destruct (mapp (lin (M t)) (trn C)), (fst n), (snd n), (trn (M t)). unfold vadd, cross. gcbn. f_equal; ring.
  - eapply mderiv_eq; [reflexivity| |apply (mderiv_mmul_r _ t _ (lin C) Q)]. cbv beta. symmetry. apply mmul_assoc.
Qed.

Lemma adj_adj_inv x n : is_rigid x -> tapp (buildFrom x) (tapp (buildFrom (hinv x)) n) = n.
Proof.
  intros Hx. rewrite adj_inv by exact Hx. destruct n as [v w]. unfold tapp, buildFrom.
  cbn [b00 b01 b10 b11 fst snd]. rewrite mapp_zero, mapp_mmul, skew_app.
  assert (I : forall y, mapp (lin x) (mapp (mT (lin x)) y) = y).
  { intros y. rewrite <- mapp_mmul, (rot_mT_r _ Hx). apply mapp_id. }
  rewrite !I. apply pair_ext; cbn [fst snd]; apply vec3_ext; unfold vadd, cross, v0; gcbn; ring.
Qed.

Lemma spatial_eq M N t n : (forall s, M s = N s) -> spatial_velocity M t n -> spatial_velocity N t n.
Proof.
  intros E [P Q]. unfold spatial_velocity. rewrite <- (E t). split.
  - eapply vderiv_eq; [|reflexivity|exact P]. intros s. cbv beta. now rewrite E.
  - eapply mderiv_eq; [|reflexivity|exact Q]. intros s. cbv beta. now rewrite E.
Qed.

(** Both frames move with the robot; the reference may move as long as the
    wanted relative pose does not change.  The rows of the jacobian times the
    joint velocity are the velocity (as a twist seen from the first frame) of
    the motion whose position and rotation vector are the error. *)
Theorem relative6_velocity gj fl (A B : R -> hom) (ref : R -> option ref6) t Jq JqRef qd :
  (forall s, is_rigid (A s)) -> (forall s, is_rigid (B s)) ->
  body_velocity A t (jvel Jq qd) -> body_velocity B t (jvel JqRef qd) ->
  length JqRef = length Jq ->
  (forall s, wanted (ref s) = wanted (ref t)) ->
  exists n J, rel6_jacobian gj fl (length (chosen fl 6)) (A t) (B t) Jq JqRef = Ok J /\
    map (fun row => dotR row qd) J = map (v6at n) (chosen fl 6) /\
    spatial_velocity (fun s => gap (A s) (B s) (ref s)) t n.
Proof.
  intros HA HB VA VB L Hr. set (X := rel (A t) (B t)).
  assert (HX : is_rigid X) by (apply rel_rigid; auto).
  destruct (jac_sub_ok (tjac (buildFrom X) JqRef) Jq) as (j & Ej & Vj); [unfold tjac; now rewrite map_length|].
  exists (v6sub (tapp (buildFrom X) (jvel JqRef qd)) (jvel Jq qd)), (map (jrow j) (chosen fl 6)). split; [|split].
  - unfold rel6_jacobian. change (rel6_pMpref (A t) (B t)) with X. rewrite Ej. cbn [bind].
    apply collect_full; [reflexivity|now rewrite repeat_length].
  - rewrite map_map. apply map_ext. intros i. rewrite jrow_dot, Vj, jvel_tjac. reflexivity.
  - apply (spatial_eq (fun s => hmul (rel (A s) (B s)) (hinv (wanted (ref t))))).
    { intros s. unfold gap. now rewrite (Hr s). }
    apply spatial_right.
    pose proof (body_spatial (fun s => rel (A s) (B s)) t _ HX (rel_body A B t _ _ HA HB VA VB)) as P. cbv beta in P. fold X in P.
    rewrite tapp_sub, adj_adj_inv in P by exact HX. exact P.
Qed.

(** The squared error, for selections that take the translation as a whole and
    the rotation as a whole (or not at all). *)
Definition whole (fl : Flags) : Prop :=
  at_ fl 0 = at_ fl 1 /\ at_ fl 1 = at_ fl 2 /\ at_ fl 3 = at_ fl 4 /\ at_ fl 4 = at_ fl 5.

(** Missing: selections that cut the translation or the rotation, for
    which it is false. *)
Theorem relative6_descent_partial g gj fl (A B : R -> hom) (ref : R -> option ref6) t Jq JqRef qd :
  (forall s, is_rigid (A s)) -> (forall s, is_rigid (B s)) -> (forall s, rigid_ref (ref s)) ->
  body_velocity A t (jvel Jq qd) -> body_velocity B t (jvel JqRef qd) ->
  length JqRef = length Jq -> (forall s, wanted (ref s) = wanted (ref t)) -> whole fl ->
  ang (matToAA (lin (gap (A t) (B t) (ref t)))) < PI ->
  let dim := length (chosen fl 6) in
  let e s := vals (rel6_error g fl dim (A s) (B s) (ref s)) in
  let J := vals (rel6_jacobian gj fl dim (A t) (B t) Jq JqRef) in
  derivable_pt_lim (fun s => dotR (e s) (e s)) t (2 * dotR (e t) (map (fun row => dotR row qd) J)) /\
  (forall lambda, map (fun row => dotR row qd) J = map (Rmult (- lambda)) (e t) ->
   derivable_pt_lim (fun s => dotR (e s) (e s)) t (- 2 * lambda * dotR (e t) (e t))).
Proof.
  intros HA HB HR VA VB L Hr (F01 & F12 & F34 & F45) HPI dim e J.
  assert (MAIN : derivable_pt_lim (fun s => dotR (e s) (e s)) t (2 * dotR (e t) (map (fun row => dotR row qd) J))).
  { destruct (relative6_velocity gj fl A B ref t Jq JqRef qd HA HB VA VB L Hr) as (n & J' & EJ & EM & VX).
    assert (EJ' : J = J') by (unfold J, dim; rewrite EJ; reflexivity). rewrite EJ', EM. clear EJ' EJ EM J J'.
    set (X := fun s => gap (A s) (B s) (ref s)) in *.
    assert (HXs : forall s, is_rot (lin (X s))).
    { intros s. unfold X, gap. cbn [hmul lin]. apply rot_mul; [exact (rel_rigid _ _ (HA s) (HB s))|].
      unfold hinv. cbn [lin]. rewrite (rot_inv _ (HR s)). apply rot_T, HR. }
    assert (Ee : forall s, e s = map (v6at (pose6 (X s))) (chosen fl 6)).
    { intros s. unfold e, dim. rewrite relative6_error. reflexivity. }
    destruct VX as [TR RX].
    set (dt := vadd (fst n) (cross (snd n) (trn (X t)))) in *.
    set (w := mapp (mT (lin (X t))) (snd n)).
    set (dr := mapp (jlog (rotvec (lin (X t)))) w).
    assert (RR : vderiv (fun s => rotvec (lin (X s))) t dr).
    { apply (rotvec_deriv (fun s => lin (X s)) t w HXs); [|exact HPI].
      unfold w. rewrite <- (skew_rot _ _ (HXs t)). exact RX. }
    rewrite Ee, dotR_map.
    assert (DS : derivable_pt_lim (fun s => sumR (map
          (fun i => v6at (pose6 (X s)) i * v6at (pose6 (X s)) i) (chosen fl 6))) t
        (sumR (map (fun i => v6at (dt, dr) i * v6at (pose6 (X t)) i
                   + v6at (pose6 (X t)) i * v6at (dt, dr) i) (chosen fl 6)))).
    { apply (deriv_sumR (fun s i => v6at (pose6 (X s)) i * v6at (pose6 (X s)) i)).
      intros i _. apply (deriv_mult (fun s => v6at (pose6 (X s)) i) (fun s => v6at (pose6 (X s)) i));
        unfold v6at, pose6; cbn [fst snd];
        destruct (i <? 3)%nat;
        [exact (v3at_deriv _ t _ _ TR)|exact (v3at_deriv _ t _ _ RR)
        |exact (v3at_deriv _ t _ _ TR)|exact (v3at_deriv _ t _ _ RR)]. }
    eapply deriv_eq; [| |exact DS].
    { intros s. rewrite Ee, dotR_map. reflexivity. }
    rewrite chosen_split, !map_app, !sumR_app, Rmult_plus_distr_l.
    change 0%Z with (Z.of_nat 0) in F01. change 1%Z with (Z.of_nat 1) in F01, F12.
    change 2%Z with (Z.of_nat 2) in F12.
    change 3%Z with (Z.of_nat 3) in F34. change 4%Z with (Z.of_nat 4) in F34, F45.
    change 5%Z with (Z.of_nat 5) in F45. rewrite !at_flag in F01, F12, F34, F45.
    injection F01 as F01. injection F12 as F12. injection F34 as F34. injection F45 as F45.
    f_equal.
    - cbn [seq filter]. rewrite F01, F12. destruct (flag fl 2); [|cbn; ring].
      unfold dt. cbn [map sumR fold_right]. unfold v6at, pose6. cbn [Nat.ltb Nat.leb Nat.sub fst snd v3at].
      generalize (trn (X t)) (fst n) (snd n). intros [a b c] [d f h] [k l m]. unfold vadd, cross. gcbn. ring.
    - cbn [seq filter]. rewrite F34, F45. destruct (flag fl 5); [|cbn; ring].
      pose proof (jlog_along (rotvec (lin (X t))) w) as JA. fold dr in JA.
      assert (BA : vdot (rotvec (lin (X t))) w = vdot (rotvec (lin (X t))) (snd n)).
      { unfold w. now rewrite vdot_mT, rotvec_fixed by apply HXs. }
      rewrite BA in JA. unfold vdot in JA.
      cbn [map sumR fold_right]. unfold v6at, pose6. cbn [Nat.ltb Nat.leb Nat.sub fst snd v3at].
      lra. }
  split; [exact MAIN|]. intros lambda El. rewrite El in MAIN.
  replace (- 2 * lambda * dotR (e t) (e t)) with (2 * dotR (e t) (map (Rmult (- lambda)) (e t)));
    [exact MAIN|].
  generalize (e t). intros l. induction l as [|x l IH]; cbn; [ring|]. rewrite Rmult_plus_distr_l, IH.
  ring.
Qed.

(** The task executed on [0, T] with gain [lam]: the squared error decreases
    exponentially. *)
Theorem relative6_decrease fl (A B : R -> hom) (ref : R -> option ref6) (Jq JqRef : R -> jac) qd lam T :
  0 <= T -> whole fl ->
  (forall s, is_rigid (A s)) -> (forall s, is_rigid (B s)) -> (forall s, rigid_ref (ref s)) ->
  (forall s u, wanted (ref s) = wanted (ref u)) ->
  let dim := length (chosen fl 6) in
  let e s := vals (rel6_error 0 fl dim (A s) (B s) (ref s)) in
  let J s := vals (rel6_jacobian [] fl dim (A s) (B s) (Jq s) (JqRef s)) in
  (forall s, 0 <= s <= T ->
     body_velocity A s (jvel (Jq s) (qd s)) /\ body_velocity B s (jvel (JqRef s) (qd s)) /\
     length (JqRef s) = length (Jq s) /\
     ang (matToAA (lin (gap (A s) (B s) (ref s)))) < PI /\
     map (fun row => dotR row (qd s)) (J s) = map (Rmult (- lam)) (e s)) ->
  forall s, 0 <= s <= T -> dotR (e s) (e s) = exp (- (2 * lam) * s) * dotR (e 0) (e 0).
Proof.
  intros HT W HA HB HR Hr dim e J HE s Hs.
  apply (exp_decrease (fun s => dotR (e s) (e s)) (2 * lam) T HT); [|exact Hs].
  intros u Hu. destruct (HE u Hu) as (VA & VB & L & HP & Q).
  pose proof (proj2 (relative6_descent_partial 0 [] fl A B ref u (Jq u) (JqRef u) (qd u) HA HB HR VA VB L
    (fun x => Hr x u) W HP) lam Q) as P.
  replace (- (2 * lam) * dotR (e u) (e u)) with (- 2 * lam * dotR (e u) (e u)) by ring. exact P.
Qed.

(** ** What the rows are not *)
(** One row alone is not the derivative of the component of the error: the
    first frame turns about x, the second is one metre away along y; the third
    component moves, the third row of the jacobian is zero. *)
Definition turn_A (s : R) : hom := H (aaToMat (AA s unitX)) v0.
Lemma turn_rigid s : is_rigid (turn_A s).
Proof. apply aaToMat_rot. exact unitX_unit. Qed.
Lemma turn_velocity : body_velocity turn_A 0 (jvel [(v0, unitX)] [1]).
Proof.
  replace (jvel [(v0, unitX)] [1]) with (v0, unitX)
    by (cbn [jvel fst snd]; unfold v0, unitX, vadd, vscal; gcbn; f_equal; f_equal; ring).
  split; cbn [fst snd turn_A lin trn].
  - rewrite mapp_v0. exact (vderiv_const v0 0).
  - rewrite no_turn, mmul_1_l. exact spin_x.
Qed.
Theorem relative6_row_refuted :
  exists (A : R -> hom) B Jq JqRef qd,
    (forall s, is_rigid (A s)) /\ is_rigid B /\ length JqRef = length Jq /\
    body_velocity A 0 (jvel Jq qd) /\ body_velocity (fun _ => B) 0 (jvel JqRef qd) /\
    ang (matToAA (lin (gap (A 0) B None))) < PI /\
    forall g gj, let fl := mkFlags [] true in
    ~ derivable_pt_lim (fun s => nth 2 (vals (rel6_error g fl 6 (A s) B None)) 0) 0
        (dotR (nth 2 (vals (rel6_jacobian gj fl 6 (A 0) B Jq JqRef)) []) qd).
Proof.
  exists turn_A, (H mid unitY), [(v0, unitX)], [(v0, v0)], [1].
  assert (Z : jvel [(v0, v0)] [1] = (v0, v0))
    by (cbn [jvel fst snd]; unfold v0, vadd, vscal; gcbn; f_equal; f_equal; ring).
  assert (VB : body_velocity (fun _ => H mid unitY) 0 (jvel [(v0, v0)] [1]))
    by (rewrite Z; apply still_body; reflexivity).
  split; [exact turn_rigid|]. split; [exact rot_id|]. split; [reflexivity|].
  split; [exact turn_velocity|]. split; [exact VB|]. split.
  { unfold gap. cbn [wanted]. rewrite hinv_hid, hmul_id_r.
    rewrite rel_lin by apply turn_rigid. cbn [turn_A lin]. rewrite no_turn, mmul_1_r.
    assert (E : mT mid = mid) by (unfold mT, mid; gcbn; reflexivity). rewrite E, ang_mid. apply PI_RGT_0. }
  intros g gj fl D.
  assert (EJ : dotR (nth 2 (vals (rel6_jacobian gj fl 6 (turn_A 0) (H mid unitY) [(v0, unitX)] [(v0, v0)])) []) [1] = 0).
  { unfold rel6_jacobian. set (bf := buildFrom _).
    assert (ET : tjac bf [(v0, v0)] = [(v0, v0)]).
    { unfold tjac. cbn [map]. unfold tapp. cbn [fst snd]. rewrite !mapp_v0. f_equal. f_equal; apply vadd_v0_l. }
    rewrite ET. cbn [jac_sub bind fst snd].
    rewrite (collect_full fl _ (fun r => jrow [(vsub v0 v0, vsub v0 unitX)] r)); [|reflexivity|reflexivity].
    cbn [vals]. change (chosen fl 6) with [0; 1; 2; 3; 4; 5]%nat. cbn [map nth jrow]. unfold v6at, vsub, v0. cbn. ring. }
  rewrite EJ in D.
  assert (D' : derivable_pt_lim (fun s => - sin s) 0 0).
  { eapply deriv_eq; [|reflexivity|exact D]. intros s. cbv beta.
    pose proof (relative6_error g fl (turn_A s) (H mid unitY) None) as E.
    change (length (chosen fl 6)) with 6%nat in E. rewrite E. cbn [vals].
    change (chosen fl 6) with [0; 1; 2; 3; 4; 5]%nat. cbn [map nth]. unfold v6at, pose6, gap.
    cbn [Nat.ltb Nat.leb fst v3at wanted]. rewrite hinv_hid, hmul_id_r, rel_trn by apply turn_rigid.
    cbn [turn_A lin trn]. unfold aaToMat, unitX, unitY, vscal, mapp, mT, vsub, v0. gcbn. ring. }
  pose proof (derivable_pt_lim_opp sin 0 (cos 0) (derivable_pt_lim_sin 0)) as D2.
  pose proof (uniqueness_limite _ _ _ _ D' D2) as U. rewrite cos_0 in U. lra.
Qed.

(** The published derivative: the selected components of the one of the absolute feature whose
    reference is the first frame of the reference pair; nothing without a reference. *)
Theorem relative6_errordot g p fl M r v w :
  rel6_errordot g p fl (length (chosen fl 6)) M (Some (r, vlist v ++ vlist w))
  = Ok (map (v6at (p6_edot p M r v w)) (chosen fl 6)) /\
  rel6_errordot g p fl (length (chosen fl 6)) M None = Ok (repeat 0 (length (chosen fl 6))).
Proof.
  unfold rel6_errordot. destruct v as [v1 v2 v3], w as [w1 w2 w3].
  change (get3 (vlist _ ++ _) 0) with (Ok (V3 v1 v2 v3)) at 1.
  change (get3 (vlist _ ++ _) 3) with (Ok (V3 w1 w2 w3)). cbn [bind].
  assert (L : forall e : vec3 * vec3,
    (let* (cursor, err) := ofold (collect_step R fl (fun i => Ok (v3at (fst e) i))) (seq 0 3)
          (0%nat, repeat g (length (chosen fl 6))) in
     let* f3 := at_ fl 3 in let* f4 := at_ fl 4 in let* f5 := at_ fl 5 in
     if f3 || f4 || f5 then
       let* (_, err') := ofold (collect_step R fl (fun i => Ok (v3at (snd e) (i - 3)))) (seq 3 3) (cursor, err) in Ok err'
     else Ok err) = Ok (map (v6at e) (chosen fl 6))).
  { intros e.
    destruct (two_loops fl (v3at (fst e)) (fun i => v3at (snd e) (i - 3)) g)
      as (e1 & c1 & E1 & (c2 & E2) & E3).
    cbv zeta in *. rewrite E1. cbn [bind].
    change 3%Z with (Z.of_nat 3). change 4%Z with (Z.of_nat 4). change 5%Z with (Z.of_nat 5).
    rewrite !at_flag. cbn [bind].
    destruct (flag fl 3 || flag fl 4 || flag fl 5); [rewrite E2|rewrite (E3 eq_refl)]; reflexivity. }
  split; [apply L|]. etransitivity; [apply (L (v0, v0))|]. f_equal.
  rewrite (map_ext _ (fun _ => 0)).
  - generalize (chosen fl 6). induction l as [|x l IH]; [reflexivity|]. cbn [map length repeat]. now rewrite IH.
  - intros i. unfold v6at, v3at, v0. cbn [fst snd]. destruct (i <? 3)%nat; cbn; [destruct i as [|[|i]]|destruct (i - 3)%nat as [|[|k]]]; reflexivity.
Qed.

(** The published derivative of the error ignores the second frame: a desired
    pair that moves as one leaves the error at zero, yet the derivative is
    not. *)
Theorem relative6_errordot_refuted :
  exists (Ma Mb : R -> hom) v,
    (forall s, is_rigid (Ma s)) /\ (forall s, is_rigid (Mb s)) /\
    world_velocity Ma 0 (v, v0) /\ world_velocity Mb 0 (v, v0) /\
    let fl := mkFlags [true; true; true] false in
    (forall g s, rel6_error g fl 3 hid hid (Some (RelRef (Some (Ma s)) (Some (Mb s)))) = Ok [0; 0; 0]) /\
    forall g p, cframe p = frame_default ->
      rel6_errordot g p fl 3 hid (Some (Ma 0, vlist v ++ vlist v0)) = Ok [-1; 0; 0].
Proof.
  set (M := fun s : R => H mid (V3 s 0 0)).
  assert (V : world_velocity M 0 (unitX, v0)).
  { split; cbn [fst snd M lin trn].
    - unfold vderiv, unitX. gcbn. split; [apply derivable_pt_lim_id|]. split; apply derivable_pt_lim_const.
    - rewrite skew_v0, mmul_zero_l. exact (mderiv_const mid 0). }
  exists M, M, unitX. split; [intros s; exact rot_id|]. split; [intros s; exact rot_id|].
  split; [exact V|]. split; [exact V|]. intros fl. split.
  - intros g s. pose proof (relative6_error g fl hid hid (Some (RelRef (Some (M s)) (Some (M s))))) as E.
    change (length (chosen fl 6)) with 3%nat in E. rewrite E.
    unfold gap. cbn [wanted]. rewrite !rel_self by exact rot_id. rewrite hinv_hid, hmul_id_r. reflexivity.
  - intros g p Hp. unfold rel6_errordot.
    change (get3 (vlist unitX ++ vlist v0) 0) with (Ok unitX).
    change (get3 (vlist unitX ++ vlist v0) 3) with (Ok v0). cbn [bind].
    assert (E : fst (p6_edot p hid (M 0) unitX v0) = V3 (-1) 0 0).
    { unfold p6_edot. rewrite Hp. cbn [frame_default fst M lin trn hid].
      assert (T : mT mid = mid) by (unfold mT, mid; gcbn; reflexivity). rewrite T, mapp_id.
      apply vec3_ext; unfold vsub, cross, unitX, v0; gcbn; ring. }
    rewrite E. reflexivity.
Qed.

(** ** Non-vacuity *)
(** Both frames are carried by the robot, one joint slides the second one along
    x towards the place one metre away along y that the reference asks. *)
Definition slide (s : R) : hom := H mid (V3 (exp (- s)) 1 0).
Definition slide_ref : option ref6 := Some (RelRef (Some hid) (Some (H mid unitY))).
Example relative6_example : let fl := mkFlags [] true in
  let e s := vals (rel6_error 0 fl 6 hid (slide s) slide_ref) in
  let J s := vals (rel6_jacobian [] fl 6 hid (slide s) [(v0, v0)] [(unitX, v0)]) in
  whole fl /\ rigid_ref slide_ref /\
  forall s, body_velocity (fun _ => hid) s (jvel [(v0, v0)] [- exp (- s)]) /\
     body_velocity slide s (jvel [(unitX, v0)] [- exp (- s)]) /\
     ang (matToAA (lin (gap hid (slide s) slide_ref))) < PI /\
     map (fun row => dotR row [- exp (- s)]) (J s) = map (Rmult (- 1)) (e s) /\
     e s = [exp (- s); 0; 0; 0; 0; 0].
Proof.
  intros fl e J. split; [repeat split|].
  assert (W : wanted slide_ref = H mid unitY).
  { cbn [slide_ref wanted]. unfold rel. now rewrite hinv_hid, hmul_id_l. }
  split; [unfold rigid_ref; rewrite W; exact rot_id|]. intros s.
  assert (G : gap hid (slide s) slide_ref = H mid (V3 (exp (- s)) 0 0)).
  { unfold gap. rewrite W. unfold rel. rewrite hinv_hid, hmul_id_l.
    unfold hinv. cbn [lin trn]. rewrite (rot_inv mid rot_id).
    assert (E : mT mid = mid) by (unfold mT, mid; gcbn; reflexivity). rewrite E, mapp_id.
    unfold hmul, slide. cbn [lin trn]. rewrite mmul_1_l, mapp_id. f_equal.
    apply vec3_ext; unfold vadd, vopp, unitY; gcbn; ring. }
  assert (Ee : e s = [exp (- s); 0; 0; 0; 0; 0]).
  { unfold e. pose proof (relative6_error 0 fl hid (slide s) slide_ref) as E.
    change (length (chosen fl 6)) with 6%nat in E. rewrite E, G. unfold pose6. cbn [lin trn]. rewrite rotvec_id. reflexivity. }
  split; [|split; [|split; [|split]]].
  - replace (jvel [(v0, v0)] [- exp (- s)]) with (v0, v0)
      by (cbn [jvel fst snd]; unfold v0, vadd, vscal; gcbn; f_equal; f_equal; ring).
    apply still_body. reflexivity.
  - replace (jvel [(unitX, v0)] [- exp (- s)]) with (vscal (- exp (- s)) unitX, v0)
        by (cbn [jvel fst snd]; unfold v0, unitX, vadd, vscal; gcbn; f_equal; f_equal; ring).
    split; cbn [fst snd slide lin trn].
    + rewrite mapp_id. unfold vderiv, unitX, vscal. gcbn.
      split; [|rewrite Rmult_0_r; split; apply derivable_pt_lim_const].
      rewrite Rmult_1_r. replace (- exp (- s)) with (exp (- s) * -1) by ring.
      apply (derivable_pt_lim_comp (fun y => - y) exp); [|apply derivable_pt_lim_exp].
      apply (derivable_pt_lim_opp id). apply derivable_pt_lim_id.
    + rewrite skew_v0, mmul_zero_r. exact (mderiv_const mid s).
  - rewrite G. cbn [lin]. rewrite ang_mid. apply PI_RGT_0.
  - rewrite Ee. unfold J, rel6_jacobian, rel6_pMpref. rewrite hinv_hid, hmul_id_l.
    unfold tjac, buildFrom. cbn [map slide lin trn]. unfold tapp. cbn [fst snd b00 b01 b10 b11].
    rewrite mapp_id, !mapp_v0, mapp_zero. cbn [jac_sub bind fst snd].
    rewrite (collect_full fl _ (fun r => jrow [(vsub (vadd unitX v0) v0, vsub (vadd v0 v0) v0)] r)); [|reflexivity|reflexivity].
    cbn [vals]. change (chosen fl 6) with [0; 1; 2; 3; 4; 5]%nat. unfold jrow, v6at, vsub, vadd, v0, unitX. cbn.
    repeat (apply f_equal2; [ring|]). reflexivity.
  - exact Ee.
Qed.

Print Assumptions relative6_error.
Print Assumptions relative6_error_zero.
Print Assumptions relative6_init.
Print Assumptions relative6_init_refused.
Print Assumptions relative6_columns.
Print Assumptions relative6_velocity.
Print Assumptions relative6_descent_partial.
Print Assumptions relative6_decrease.
Print Assumptions relative6_row_refuted.
Print Assumptions relative6_errordot_refuted.
Print Assumptions relative6_errordot.
