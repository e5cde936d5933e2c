(** C87-C90: FeaturePoint6d. *)
From Coq Require Import String List Arith Lia ZArith Bool Reals Lra Psatz.
From Verif Require Import Base Flags_Model Flags_Proofs Feature_Model Feature_Proofs.
From Verif Require Import Geom_Model Geom_Facts Geom_Rot Geom_Props OpPoint_Model OpPoint_Props.
From Verif Require Import Rodr_Facts Rel_Facts Point6d_Model.
Import ListNotations.
Local Open Scope R_scope.

(* ---------------------------------------------------------------- *)
(** ** Selection *)

(** Two consecutive selection loops make one. *)
Lemma ofold_app {A B} (f : A -> B -> outcome A) l l' a :
  ofold f (l ++ l') a = bind (ofold f l a) (fun b => ofold f l' b).
Proof.
  revert a. induction l as [|x l IH]; intros a; cbn [ofold app bind]; [reflexivity|].
  destruct (f a x); cbn [bind]; auto.
Qed.

Lemma filter_none {A} (f : A -> bool) l : (forall x, In x l -> f x = false) -> filter f l = [].
Proof.
  induction l as [|x l IH]; intros E; [reflexivity|]. cbn [filter].
  rewrite (E x) by (left; reflexivity). apply IH. intros y Hy. apply E. right. exact Hy.
Qed.

Lemma map_const {A B} (c : B) (l : list A) : map (fun _ => c) l = repeat c (length l).
Proof. induction l; cbn; f_equal; auto. Qed.

Lemma chosen_split fl :
  chosen fl 6 = filter (flag fl) (seq 0 3) ++ filter (flag fl) (seq 3 3).
Proof. unfold chosen. change (seq 0 6) with (seq 0 3 ++ seq 3 3). apply filter_app. Qed.

Lemma two_loops (fl : Flags) (a b : nat -> R) g :
  let d := length (chosen fl 6) in
  exists e1 c1,
    ofold (collect_step R fl (fun i => Ok (a i))) (seq 0 3) (0%nat, repeat g d) = Ok (c1, e1) /\
    (exists c2, ofold (collect_step R fl (fun i => Ok (b i))) (seq 3 3) (c1, e1)
       = Ok (c2, map (fun i => if (i <? 3)%nat then a i else b i) (chosen fl 6))) /\
    (flag fl 3 || flag fl 4 || flag fl 5 = false ->
       e1 = map (fun i => if (i <? 3)%nat then a i else b i) (chosen fl 6)).
Proof.
  cbv zeta.
  assert (L : length (chosen fl 6) = (length (filter (flag fl) (seq 0 3))
                + length (filter (flag fl) (seq 3 3)))%nat)
    by (rewrite chosen_split; apply app_length).
  assert (M : map (fun i => if (i <? 3)%nat then a i else b i) (chosen fl 6)
     = map a (filter (flag fl) (seq 0 3)) ++ map b (filter (flag fl) (seq 3 3))).
  { rewrite chosen_split, map_app. f_equal; apply map_ext_in; intros i Hi;
      apply filter_In in Hi; destruct Hi as [Hi _]; apply in_seq in Hi.
    - destruct (Nat.ltb_spec i 3); [reflexivity|lia].
    - destruct (Nat.ltb_spec i 3); [lia|reflexivity]. }
  destruct (collect_fold fl (fun i => Ok (a i)) a (seq 0 3) 0
              (repeat g (length (chosen fl 6)))) as (r & E & Er).
  { reflexivity. }
  { rewrite repeat_length, L. lia. }
  eexists _, _. split; [exact E|]. cbn [firstn app] in Er.
  set (n1 := length (filter (flag fl) (seq 0 3))) in *.
  set (n2 := length (filter (flag fl) (seq 3 3))) in *.
  assert (Lr : length r = (n1 + n2)%nat).
  { rewrite Er, app_length, map_length, skipn_length, repeat_length, L. fold n1. lia. }
  split.
  - destruct (collect_fold fl (fun i => Ok (b i)) b (seq 3 3) (0 + n1) r) as (r2 & E2 & Er2).
    { reflexivity. }
    { fold n2. lia. }
    eexists. rewrite E2. f_equal. f_equal. rewrite Er2, M. fold n2.
    rewrite (skipn_all2 r) by lia. rewrite app_nil_r. f_equal.
    rewrite Er, Nat.add_0_l. rewrite firstn_app, map_length. fold n1.
    rewrite Nat.sub_diag, firstn_O, app_nil_r. apply firstn_all2.
    rewrite map_length. fold n1. lia.
  - intros F.
    assert (Z : filter (flag fl) (seq 3 3) = []).
    { apply filter_none. intros x Hx. apply in_seq in Hx.
      apply orb_false_iff in F. destruct F as [F F5].
      apply orb_false_iff in F. destruct F as [F3 F4].
      assert (x = 3 \/ x = 4 \/ x = 5)%nat as [-> | [-> | ->]] by lia; assumption. }
    rewrite M, Z, app_nil_r, Er, Nat.add_0_l. unfold n2 in Lr. rewrite Z in Lr. cbn [length] in Lr.
    rewrite skipn_all2; [apply app_nil_r|].
    rewrite repeat_length, L. fold n1 n2. unfold n2. rewrite Z. cbn. lia.
Qed.

(* ---------------------------------------------------------------- *)
(** ** Specification
    With no reference the desired frame is the world.  In the current frame
    the feature looks at the desired frame from the controlled one, in the
    desired frame it looks at the controlled frame from the desired one. *)
Definition desired (ref : option hom) : hom :=
  match ref with Some m => m | None => hid end.
Definition seen (f : frame) (M : hom) (ref : option hom) : hom :=
  match f with
  | FRAME_CURRENT => rel M (desired ref)
  | FRAME_DESIRED => rel (desired ref) M
  end.
(** Six coefficients: the translation and the rotation vector. *)
Definition pose6 (m : hom) : vec3 * vec3 := (trn m, rotvec (lin m)).
(** Product of a row by a vector. *)
Fixpoint dotR (a b : list R) : R :=
  match a, b with x :: a', y :: b' => x * y + dotR a' b' | _, _ => 0 end.

(** ** C87 *)
Lemma hinv_hid : hinv hid = hid.
Proof.
  unfold hinv, hid. cbn [lin trn]. rewrite (rot_inv mid rot_id).
  unfold mT, mid, v0, vopp, mapp. gcbn. f_equal; f_equal; ring.
Qed.

Lemma p6_seen f M ref : p6_hMhd f M ref = seen f M ref.
Proof.
  destruct ref as [r|], f; cbn [p6_hMhd seen desired]; unfold rel; try reflexivity.
  - now rewrite hinv_hid, hmul_id_l.
  - now rewrite hmul_id_r.
Qed.

(** The dimension is the number of selected components among six. *)
Theorem point6d_dimension fl : p6_dimension fl = Ok (length (chosen fl 6)).
Proof. apply count_flags_ok. Qed.

Lemma v3at_vscal k v i : v3at (vscal k v) i = k * v3at v i.
Proof. destruct v; destruct i as [|[|i]]; reflexivity. Qed.

Theorem point6d_error g p fl M ref :
  exists th, p6_error g p fl (length (chosen fl 6)) M ref
    = Ok (mkP6 (cframe p) th, map (v6at (pose6 (seen (cframe p) M ref))) (chosen fl 6)) /\
  ((exists i, (3 <= i < 6)%nat /\ at_ fl (Z.of_nat i) = Ok true) ->
     th = matToAA (lin (seen (cframe p) M ref))).
Proof.
  unfold p6_error. rewrite p6_seen.
  set (X := seen (cframe p) M ref).
  destruct (two_loops fl (v3at (trn X)) (fun i => ang (matToAA (lin X)) *
     v3at (axis (matToAA (lin X))) (i - 3)) g) as (e1 & c1 & E1 & (c2 & E2) & E3).
  cbv zeta in *. rewrite E1. cbn [bind].
  change 3%Z with (Z.of_nat 3). change 4%Z with (Z.of_nat 4). change 5%Z with (Z.of_nat 5).
  rewrite !at_flag. cbn [bind].
  assert (M6 : map (v6at (pose6 X)) (chosen fl 6) =
     map (fun i => if (i <? 3)%nat then v3at (trn X) i else ang (matToAA (lin X)) *
     v3at (axis (matToAA (lin X))) (i - 3)) (chosen fl 6)).
  { apply map_ext. intros i. unfold v6at, pose6, rotvec. cbn [fst snd].
    destruct (i <? 3)%nat; [reflexivity|]. apply v3at_vscal. }
  destruct (flag fl 3 || flag fl 4 || flag fl 5) eqn:F.
  - rewrite E2. cbn [bind]. exists (matToAA (lin X)). rewrite M6. split; reflexivity.
  - exists (error_th p). rewrite M6, (E3 eq_refl). split; [now destruct p|].
    intros (i & Hi & Hf). rewrite at_flag in Hf. exfalso.
    apply orb_false_iff in F. destruct F as [F F5].
    apply orb_false_iff in F. destruct F as [F3 F4].
    assert (i = 3 \/ i = 4 \/ i = 5)%nat as [-> | [-> | ->]] by lia; congruence.
Qed.

Theorem point6d_jacobian g p fl M ref Jq :
  p6_jacobian g p fl (length (chosen fl 6)) M ref Jq
  = Ok (map (jrow (p6_LJq (cframe p) M ref Jq)) (chosen fl 6)).
Proof.
  unfold p6_jacobian. apply collect_full; [reflexivity|]. now rewrite repeat_length.
Qed.

Theorem point6d_errordot g p fl M r v w :
  exists th, p6_errordot g p fl (length (chosen fl 6)) M (Some (r, vlist v ++ vlist w))
    = Ok (mkP6 (cframe p) th,
          map (v6at (p6_edot (mkP6 (cframe p) th) M r v w)) (chosen fl 6)) /\
  ((exists i, (3 <= i < 6)%nat /\ at_ fl (Z.of_nat i) = Ok true) ->
     th = matToAA (lin (seen (cframe p) M (Some r)))).
Proof.
  destruct (point6d_error g p fl M (Some r)) as (th & E & T). exists th.
  split; [|exact T]. clear T.
  unfold p6_errordot. destruct v as [v1 v2 v3], w as [w1 w2 w3].
  change (get3 _ 0) with (Ok (V3 v1 v2 v3)) at 1.
  change (get3 _ 3) with (Ok (V3 w1 w2 w3)). cbn [bind].
  rewrite E. cbn [bind].
  set (e := p6_edot _ M r _ _).
  destruct (two_loops fl (v3at (fst e)) (fun i => v3at (snd e) (i - 3)) g)
    as (e1 & c1 & E1 & (c2 & E2) & E3).
  cbv zeta in *. rewrite E1. cbn [bind].
  change 3%Z with (Z.of_nat 3). change 4%Z with (Z.of_nat 4). change 5%Z with (Z.of_nat 5).
  rewrite !at_flag. cbn [bind].
  destruct (flag fl 3 || flag fl 4 || flag fl 5) eqn:F.
  - rewrite E2. reflexivity.
  - rewrite (E3 eq_refl). reflexivity.
Qed.

(** Without a reference the error derivative is zero. *)
Theorem point6d_errordot_noref g p fl M :
  p6_errordot g p fl (length (chosen fl 6)) M None
  = Ok (p, repeat 0 (length (chosen fl 6))).
Proof.
  unfold p6_errordot. cbn [bind].
  destruct (two_loops fl (v3at (fst (v0, v0))) (fun i => v3at (snd (v0, v0)) (i - 3)) g)
    as (e1 & c1 & E1 & (c2 & E2) & E3).
  cbv zeta in *. rewrite E1. cbn [bind].
  change 3%Z with (Z.of_nat 3). change 4%Z with (Z.of_nat 4). change 5%Z with (Z.of_nat 5).
  rewrite !at_flag. cbn [bind].
  assert (Z : map (fun i => if (i <? 3)%nat then v3at (fst (v0, v0)) i
                 else v3at (snd (v0, v0)) (i - 3)) (chosen fl 6)
              = repeat 0 (length (chosen fl 6))).
  { rewrite <- map_const. apply map_ext. intros i. cbn [fst snd].
    destruct (i <? 3)%nat; unfold v3at, v0; cbn [vx vy vz];
      destruct i as [|[|i]]; try reflexivity; destruct (_ - 3)%nat as [|[|]]; reflexivity. }
  rewrite <- Z.
  destruct (flag fl 3 || flag fl 4 || flag fl 5) eqn:F.
  - rewrite E2. reflexivity.
  - rewrite (E3 eq_refl). reflexivity.
Qed.

(** Frame commands. *)
Theorem point6d_frame p s :
  (forall p', p6_set_frame p s = Ok p' -> p6_get_frame p' = s) /\
  ((exists p', p6_set_frame p s = Ok p') <-> s = "current"%string \/ s = "desired"%string) /\
  p6_get_frame (mkP6 frame_default (error_th p)) = "desired"%string.
Proof.
  unfold p6_set_frame, p6_get_frame.
  destruct (String.eqb_spec s "current") as [-> | N1];
    [|destruct (String.eqb_spec s "desired") as [-> | N2]].
  - split; [|split; [|reflexivity]].
    + intros p' [= <-]. reflexivity.
    + split; [auto|eauto].
  - split; [|split; [|reflexivity]].
    + intros p' [= <-]. reflexivity.
    + split; [auto|eauto].
  - split; [|split; [|reflexivity]].
    + intros p' D; discriminate D.
    + split; [intros (p' & D); discriminate D|intros [-> | ->]; contradiction].
Qed.

(** Keep: the error vanishes at the current position, in both frames and for
    every selection; without a reference the command is refused. *)
Lemma rel_self m : is_rigid m -> rel m m = hid.
Proof. intros Hm. apply hinv_l, rigid_det, Hm. Qed.

Theorem point6d_keep g p fl pos ref :
  is_rigid pos ->
  (ref = None -> p6_keep pos ref = Throw "GENERIC") /\
  (forall ref', p6_keep pos ref = Ok ref' ->
     exists p', p6_error g p fl (length (chosen fl 6)) pos ref'
                = Ok (p', repeat 0 (length (chosen fl 6)))) /\
  (ref <> None -> exists ref', p6_keep pos ref = Ok ref').
Proof.
  intros Hp. split; [intros ->; reflexivity|]. split.
  - intros ref' E. destruct ref as [r|]; [|discriminate E]. injection E as <-.
    destruct (point6d_error g p fl pos (Some pos)) as (th & -> & _).
    eexists. f_equal. f_equal.
    assert (Z : seen (cframe p) pos (Some pos) = hid)
      by (destruct (cframe p); apply rel_self, Hp).
    rewrite Z, <- map_const. apply map_ext. intros i.
    unfold v6at, pose6, hid. cbn [fst snd lin trn]. rewrite rotvec_id.
    destruct (i <? 3)%nat; [destruct i as [|[|]]|destruct (i - 3)%nat as [|[|]]]; reflexivity.
  - intros N. destruct ref; [|contradiction]. eexists. reflexivity.
Qed.

(* ---------------------------------------------------------------- *)
(** ** What the jacobian and the error derivative are *)
Lemma p6_LJq_noref f M Jq : p6_LJq f M None Jq = p6_LJq f M (Some hid) Jq.
Proof.
  destruct f; cbn [p6_LJq].
  - unfold hid. cbn [lin]. now rewrite (rot_inv mid rot_id), mmul_1_l.
  - f_equal. unfold p6_Lx, hid, v0. cbn [lin trn]. gcbn. rewrite !Rminus_0_l. reflexivity.
Qed.

Lemma jvel_current M r Jq qd : is_rigid M -> is_rigid r ->
  let n := jvel Jq qd in let X := rel M r in
  jvel (p6_LJq FRAME_CURRENT M (Some r) Jq) qd
  = (vadd (vopp (fst n)) (cross (trn X) (snd n)),
     vopp (mapp (mT (lin X)) (snd n))).
Proof.
  intros HM Hr. cbv zeta. cbn [p6_LJq]. unfold tjac. rewrite jvel_map.
  - set (n := jvel Jq qd).
    rewrite (rel_trn M r HM), (rel_lin M r HM), mmul_mT, mT_mT.
    unfold p6_Lx, tapp. cbn [b00 b01 b10 b11].
    rewrite (rot_inv _ HM), (rot_inv _ Hr).
    change (V3 (vx (trn r) - vx (trn M)) (vy (trn r) - vy (trn M)) (vz (trn r) - vz (trn M)))
      with (vsub (trn r) (trn M)).
    set (x := mapp (mT (lin M)) _). set (K := mmul _ _).
    apply pair_ext; cbn [fst snd].
    + destruct (fst n), (snd n). unfold mapp, vadd, vopp, cross. gcbn. f_equal; ring.
    + destruct K, (fst n), (snd n). unfold mapp, mopp, vadd, vopp. gcbn. f_equal; ring.
  - intros x [c1 c2] [e1 e2]. cbn [fst snd]. unfold tapp. cbn [fst snd].
    rewrite !mapp_vadd, !mapp_vscal. apply pair_ext; cbn [fst snd];
      apply vec3_ext; unfold vadd, vscal; gcbn; ring.
  - unfold tapp. cbn [fst snd]. rewrite !mapp_v0, vadd_v0_l. reflexivity.
Qed.

Lemma jvel_desired M r Jq qd : is_rigid M -> is_rigid r ->
  let n := jvel Jq qd in let X := rel r M in
  jvel (p6_LJq FRAME_DESIRED M (Some r) Jq) qd
  = (mapp (lin X) (fst n), mapp (lin X) (snd n)).
Proof.
  intros HM Hr. cbv zeta. cbn [p6_LJq]. rewrite jvel_map.
  - rewrite (rel_lin r M Hr), (rot_inv _ Hr). reflexivity.
  - intros x [c1 c2] [e1 e2]. cbn [fst snd].
    rewrite !mapp_vadd, !mapp_vscal. reflexivity.
  - cbn [fst snd]. rewrite !mapp_v0. reflexivity.
Qed.

Lemma edot_th f th th' M r v w :
  fst (p6_edot (mkP6 f th) M r v w) = fst (p6_edot (mkP6 f th') M r v w).
Proof. destruct f; reflexivity. Qed.

(** The translation part: exact in both frames. *)
Lemma translation_rate f th M D t Jq qd v w :
  (forall s, is_rigid (M s)) -> (forall s, is_rigid (D s)) ->
  body_velocity M t (jvel Jq qd) -> world_velocity D t (v, w) ->
  vderiv (fun s => trn (seen f (M s) (Some (D s)))) t
    (vadd (fst (jvel (p6_LJq f (M t) (Some (D t)) Jq) qd))
          (fst (p6_edot (mkP6 f th) (M t) (D t) v w))).
Proof.
  intros HM HD VM VD. pose proof (world_body D t _ (HD t) VD) as BD. cbn [fst snd] in BD.
  destruct f; cbn [seen desired].
  - rewrite jvel_desired by auto. cbn [p6_edot cframe fst snd].
    eapply vderiv_eq; [reflexivity| |exact (proj1 (rel_velocity D M t _ _ HD HM BD VM))].
    cbn [fst snd]. rewrite (rel_trn (D t) (M t) (HD t)).
    set (q := mapp (lin (rel _ _)) _).
    rewrite !mapp_vsub, (rot_cross _ _ _ (rot_T _ (HD t))), !mapp_vsub.
    destruct q, (mapp _ v), (mapp _ w), (mapp _ (trn (M t))), (mapp _ (trn (D t))).
    unfold vadd, vsub, cross. gcbn. f_equal; ring.
  - rewrite jvel_current by auto. cbn [p6_edot cframe fst snd].
    eapply vderiv_eq; [reflexivity| |exact (proj1 (rel_velocity M D t _ _ HM HD VM BD))].
    cbn [fst snd]. rewrite (rel_lin (M t) (D t) (HM t)), mapp_mmul.
    rewrite <- (mapp_mmul (lin (D t))), (rot_mT_r _ (HD t)), mapp_id.
    destruct (jvel Jq qd) as [n1 n2]. cbn [fst snd].
    destruct (mapp _ v), n1, n2, (trn (rel (M t) (D t))).
    unfold vadd, vsub, vopp, cross. gcbn. f_equal; ring.
Qed.

(** The rotation vector: its rate is the jacobian product, carried through
    [jlog], plus the contribution of the reference. *)
Definition body_of (f : frame) (X : hom) (w : vec3) : vec3 :=
  match f with FRAME_CURRENT => w | FRAME_DESIRED => mapp (mT (lin X)) w end.

Definition ref_spin (f : frame) (M D : hom) (w : vec3) : vec3 :=
  match f with
  | FRAME_CURRENT => mapp (mT (lin D)) w
  | FRAME_DESIRED => vopp (mapp (mT (lin M)) w)
  end.

Lemma rotation_rate f M D t Jq qd v w :
  (forall s, is_rigid (M s)) -> (forall s, is_rigid (D s)) ->
  body_velocity M t (jvel Jq qd) -> world_velocity D t (v, w) ->
  let X := seen f (M t) (Some (D t)) in
  ang (matToAA (lin X)) < PI ->
  vderiv (fun s => rotvec (lin (seen f (M s) (Some (D s))))) t
    (vadd (mapp (jlog (rotvec (lin X)))
             (body_of f X (snd (jvel (p6_LJq f (M t) (Some (D t)) Jq) qd))))
          (mapp (jlog (rotvec (lin X))) (ref_spin f (M t) (D t) w))).
Proof.
  intros HM HD VM VD. cbv zeta.
  pose proof (world_body D t _ (HD t) VD) as BD. cbn [fst snd] in BD.
  destruct f; cbn [seen desired body_of ref_spin]; intros HX.
  - rewrite jvel_desired by auto. cbn [snd].
    eapply vderiv_eq; [reflexivity| |exact (rel_rotvec D M t _ _ HD HM BD VM HX)].
    rewrite <- mapp_vadd. f_equal. cbn [snd].
    set (X := rel (D t) (M t)) in *.
    pose proof (rot_mT_l _ (rel_rigid _ _ (HD t) (HM t))) as RX. fold X in RX.
    rewrite <- (mapp_mmul (mT (lin X)) (lin X)), RX, mapp_id. clear RX.
    unfold X. rewrite (rel_lin (D t) (M t) (HD t)), mmul_mT, mT_mT, mapp_mmul.
    rewrite <- (mapp_mmul (lin (D t))), (rot_mT_r _ (HD t)), mapp_id.
    destruct (snd (jvel Jq qd)), (mapp _ w). unfold vsub, vadd, vopp. gcbn. f_equal; ring.
  - rewrite jvel_current by auto. cbn [snd].
    eapply vderiv_eq; [reflexivity| |exact (rel_rotvec M D t _ _ HM HD VM BD HX)].
    rewrite <- mapp_vadd. f_equal. cbn [snd].
    destruct (mapp _ w), (mapp _ (snd _)). unfold vsub, vadd, vopp. gcbn. f_equal; ring.
Qed.

(* ---------------------------------------------------------------- *)
(** ** The matrix generated by maxima *)
Lemma p6_P_jexp th : accuracy <= vdot (vscal (ang th) (axis th)) (vscal (ang th) (axis th)) ->
  p6_P th = jexp (vscal (ang th) (axis th)).
Proof.
  destruct th as [a [x y z]]. unfold p6_P, jexp, vscal. gcbn.
  set (r1 := a * x). set (r2 := a * y). set (r3 := a * z). clearbody r1 r2 r3. clear a x y z.
  cbv zeta. intros Hn. unfold vdot in Hn. gcbn.
  assert (A : 0 < accuracy) by (unfold accuracy; lra).
  destruct (Rlt_dec _ accuracy) as [F|_]; [lra|].
  assert (En : vnorm (V3 r1 r2 r3) = sqrt (r3 * r3 + r2 * r2 + r1 * r1)).
  { unfold vnorm, vdot. gcbn. f_equal. ring. }
  rewrite En. set (n := sqrt _).
  assert (N2 : n * n = r3 * r3 + r2 * r2 + r1 * r1) by (apply sqrt_sqrt; lra).
  assert (NP : 0 < n) by (apply sqrt_lt_R0; lra).
  destruct (Req_EM_T n 0) as [F|_]; [lra|].
  replace (r3 * r3 * (r3 * r3) + (2 * (r2 * r2) + 2 * (r1 * r1)) * (r3 * r3)
           + r2 * r2 * (r2 * r2) + 2 * (r1 * r1) * (r2 * r2) + r1 * r1 * (r1 * r1))
    with (n * n * (n * n)) by (rewrite N2; ring).
  set (s := sin n). set (c := cos n). clearbody s c n. clear En Hn.
  assert (R3 : r3 * r3 = n * n - r2 * r2 - r1 * r1) by lra.
  unfold madd, mscal, mmul, skew, mid. gcbn. clear N2.
  f_equal; field [R3]; lra.
Qed.

Lemma vnorm_rotvec m : is_rot m -> vnorm (rotvec m) = ang (matToAA m).
Proof.
  intros Hr. destruct (rot_angle m Hr) as (U & [B _] & _). now apply vnorm_vscal_unit.
Qed.

Lemma vdot_norm e : vdot e e = vnorm e * vnorm e.
Proof. symmetry. apply sqrt_sqrt. destruct e. unfold vdot. gcbn. nra. Qed.

(** Above the threshold the program inverts the exact matrix; below it the
    identity is used. *)
Lemma p6_Pinv_jlog m : is_rot m ->
  (accuracy <= ang (matToAA m) * ang (matToAA m) -> p6_Pinv (matToAA m) = jlog (rotvec m)) /\
  (ang (matToAA m) * ang (matToAA m) < accuracy -> p6_Pinv (matToAA m) = mid).
Proof.
  intros Hr. pose proof (vnorm_rotvec m Hr) as En. pose proof (vdot_norm (rotvec m)) as Ed.
  rewrite En in Ed. destruct (rot_angle m Hr) as (_ & [B0 B1] & _).
  pose proof PI_RGT_0 as HP.
  unfold p6_Pinv. split; intros H.
  - rewrite p6_P_jexp by (fold (rotvec m); lra). apply minv_jexp. fold (rotvec m). lra.
  - unfold p6_P. destruct (Rlt_dec _ _) as [_|F].
    + rewrite (rot_inv mid rot_id). reflexivity.
    + exfalso. apply F. unfold rotvec in Ed. unfold vdot, vscal in Ed. gcbn. lra.
Qed.

(** A bound on the error made below the threshold. *)
Lemma jlog_small e w : vnorm e < 1 ->
  vnorm (vsub w (mapp (jlog e) w)) <= vnorm e * vnorm w.
Proof.
  intros Hn. destruct (Req_EM_T (vnorm e) 0) as [E|E].
  - unfold jlog. destruct (Req_EM_T (vnorm e) 0); [|contradiction].
    rewrite mapp_id, E. 
    replace (vsub w w) with v0 by (destruct w; unfold vsub, v0; gcbn; f_equal; ring).
    unfold vnorm. replace (vdot v0 v0) with 0 by (unfold vdot, v0; gcbn; ring).
    rewrite sqrt_0. lra.
  - destruct (aa_of_vec e E) as (th & u & P & U & -> & En). rewrite En in *.
    rewrite jlog_aa by assumption.
    pose proof PI_RGT_0 as HP. pose proof PI2_1 as HP1.
    set (b := 1 - th * sin th / (2 * (1 - cos th))).
    assert (HB : 0 <= b <= th * th / 8).
    { (* with x = th / 2, b = 1 - x cos x / sin x *)
      unfold b. set (x := th / 2). assert (Ex : th = 2 * x) by (unfold x; field).
      assert (Hx : 0 < x < PI / 2) by (unfold x; lra).
      assert (S : 0 < sin x) by (apply sin_gt_0; lra).
      assert (C : 0 < cos x) by (apply cos_gt_0; lra).
      pose proof (x_cos_le_sin x Hx) as XC. pose proof (sin_lt_x x ltac:(lra)) as XS.
      replace (th * sin th / (2 * (1 - cos th))) with (x * cos x / sin x).
      2: { rewrite Ex, sin_2a, cos_2a_sin. field. split; [|lra].
           intros Z. assert (0 < sin x * sin x) by (apply Rmult_lt_0_compat; exact S). nra. }
      split.
      - assert (x * cos x / sin x <= 1); [|lra].
        apply (Rmult_le_reg_r (sin x)); [exact S|].
        replace (x * cos x / sin x * sin x) with (x * cos x) by (field; lra). lra.
      - assert (cos x <= x * cos x / sin x).
        { apply (Rmult_le_reg_r (sin x)); [exact S|].
          replace (x * cos x / sin x * sin x) with (x * cos x) by (field; lra). nra. }
        assert (1 - x * x / 2 <= cos x).
        { replace x with (2 * (x / 2)) at 3 by field. rewrite cos_2a_sin.
          assert (0 < sin (x / 2)) by (apply sin_gt_0; lra).
          pose proof (sin_lt_x (x / 2) ltac:(lra)).
          assert (sin (x / 2) * sin (x / 2) <= x / 2 * (x / 2)) by (apply Rmult_le_compat; lra).
          lra. }
        rewrite Ex. lra. }
    set (q := vsub (vscal (vdot u w) u) w).
    assert (Eq : vsub w (vadd w (vadd (vscal (th / 2) (cross u w)) (vscal b q)))
            = vopp (vadd (vscal (th / 2) (cross u w)) (vscal b q)))
      by (apply vec3_ext; unfold vsub, vadd, vopp; gcbn; ring).
    rewrite Eq. set (d := vopp _).
    assert (Hd : vdot d d = (th * th / 4 + b * b) * (vdot w w - vdot u w * vdot u w)).
    { unfold d, q. clear - U. clearbody b.
      destruct u as [x y z], w as [p q r]. unfold vdot in *. gcbn.
      unfold vopp, vadd, vscal, vsub, cross. gcbn.
      set (k := x * p + y * q + z * r).
      assert (Z : z * z = 1 - x * x - y * y) by lra.
      unfold k. field [Z]. }
    assert (Hw : 0 <= vdot u w * vdot u w) by nra.
    assert (HW : 0 <= vdot w w) by (destruct w; unfold vdot; gcbn; nra).
    assert (Hle : vdot d d <= th * th * vdot w w).
    { rewrite Hd. assert (b * b <= th * th / 8 * (th * th / 8)) by (apply Rmult_le_compat; lra).
      assert (th * th <= 1) by nra.
      assert (b * b <= th * th / 64) by nra.
      assert (0 <= b * b) by nra. assert (0 <= th * th) by nra.
      apply Rle_trans with ((th * th / 4 + b * b) * vdot w w).
      - apply Rmult_le_compat_l; lra.
      - apply Rmult_le_compat_r; lra. }
    unfold vnorm at 1.
    replace (th * vnorm w) with (sqrt (th * th * vdot w w)).
    + apply sqrt_le_1_alt, Hle.
    + unfold vnorm. rewrite sqrt_mult_alt by nra. rewrite sqrt_square by lra. reflexivity.
Qed.

Lemma jrow_dot j qd i : dotR (jrow j i) qd = v6at (jvel j qd) i.
Proof.
  revert qd. induction j as [|c j IH]; intros [|x qd].
  - cbn. unfold v6at. destruct (i <? 3)%nat; cbn [fst snd]; [destruct i as [|[|]]|
      destruct (i - 3)%nat as [|[|]]]; reflexivity.
  - cbn. unfold v6at. destruct (i <? 3)%nat; cbn [fst snd]; [destruct i as [|[|]]|
      destruct (i - 3)%nat as [|[|]]]; reflexivity.
  - cbn. unfold v6at. destruct (i <? 3)%nat; cbn [fst snd]; [destruct i as [|[|]]|
      destruct (i - 3)%nat as [|[|]]]; reflexivity.
  - cbn [jrow map dotR jvel]. fold (jrow j i). rewrite IH. unfold v6at. cbn [fst snd].
    destruct (i <? 3)%nat; unfold v3at, vadd, vscal; cbn [vx vy vz];
      [destruct i as [|[|]]|destruct (i - 3)%nat as [|[|]]]; cbn [vx vy vz]; ring.
Qed.

(* ---------------------------------------------------------------- *)
(** ** C88: translation *)
Definition out {A} (o : outcome (A * list R)) : list R :=
  match o with Ok (_, l) => l | _ => [] end.
Definition rows (o : outcome (list (list R))) : list (list R) :=
  match o with Ok l => l | _ => [] end.

Lemma nth_map_chosen {B} (f : nat -> B) d fl k i :
  nth_error (chosen fl 6) k = Some i -> nth k (map f (chosen fl 6)) d = f i.
Proof.
  intros E. apply nth_error_nth. rewrite nth_error_map, E. reflexivity.
Qed.

Lemma deriv_eq f g t a b : (forall s, f s = g s) -> a = b ->
  derivable_pt_lim f t a -> derivable_pt_lim g t b.
Proof. intros E ->. apply derivable_pt_lim_ext, E. Qed.

Lemma v3at_deriv f t d i : vderiv f t d -> derivable_pt_lim (fun s => v3at (f s) i) t (v3at d i).
Proof. intros (A & B & C). destruct i as [|[|i]]; assumption. Qed.

Lemma v3at_vadd a b i : v3at (vadd a b) i = v3at a i + v3at b i.
Proof. destruct i as [|[|i]]; reflexivity. Qed.

(** A robot frame M and a reference D moving in any way: the rate of every
    selected translation component of the error is the corresponding row of
    the jacobian times the joint velocity, plus the corresponding component
    of the error derivative. *)
Theorem point6d_translation_rate g gj p fl (M D : R -> hom) t Jq qd v w k i :
  (forall s, is_rigid (M s)) -> (forall s, is_rigid (D s)) ->
  body_velocity M t (jvel Jq qd) -> world_velocity D t (v, w) ->
  let dim := length (chosen fl 6) in
  nth_error (chosen fl 6) k = Some i -> (i < 3)%nat ->
  derivable_pt_lim
    (fun s => nth k (out (p6_error g p fl dim (M s) (Some (D s)))) 0) t
    (dotR (nth k (rows (p6_jacobian gj p fl dim (M t) (Some (D t)) Jq)) []) qd
     + nth k (out (p6_errordot g p fl dim (M t) (Some (D t, vlist v ++ vlist w)))) 0).
Proof.
  intros HM HD VM VD dim Ek Hi. subst dim.
  rewrite point6d_jacobian. cbn [rows]. rewrite (nth_map_chosen _ _ _ _ _ Ek), jrow_dot.
  destruct (point6d_errordot g p fl (M t) (D t) v w) as (th & -> & _). cbn [out].
  rewrite (nth_map_chosen _ _ _ _ _ Ek).
  unfold v6at. destruct (Nat.ltb_spec i 3) as [_|F]; [|lia].
  eapply deriv_eq; [| |exact (v3at_deriv _ t _ i
     (translation_rate (cframe p) th M D t Jq qd v w HM HD VM VD))].
  - intros s. destruct (point6d_error g p fl (M s) (Some (D s))) as (th' & -> & _). cbn [out].
    rewrite (nth_map_chosen _ _ _ _ _ Ek). unfold v6at, pose6. cbn [fst].
    destruct (Nat.ltb_spec i 3); [reflexivity|lia].
  - apply v3at_vadd.
Qed.

(** The same without a reference. *)
Theorem point6d_translation_rate_noref g gj p fl (M : R -> hom) t Jq qd k i :
  (forall s, is_rigid (M s)) -> body_velocity M t (jvel Jq qd) ->
  let dim := length (chosen fl 6) in
  nth_error (chosen fl 6) k = Some i -> (i < 3)%nat ->
  derivable_pt_lim (fun s => nth k (out (p6_error g p fl dim (M s) None)) 0) t
    (dotR (nth k (rows (p6_jacobian gj p fl dim (M t) None Jq)) []) qd).
Proof.
  intros HM VM dim Ek Hi. subst dim.
  rewrite point6d_jacobian. cbn [rows]. rewrite (nth_map_chosen _ _ _ _ _ Ek), jrow_dot.
  rewrite p6_LJq_noref.
  unfold v6at. destruct (Nat.ltb_spec i 3) as [_|F]; [|lia].
  assert (HD : forall s : R, is_rigid hid) by (intros; exact rot_id).
  assert (VD : world_velocity (fun _ => hid) t (v0, v0)).
  { split; cbn [fst snd]; [apply vderiv_const|].
    eapply mderiv_eq; [reflexivity| |apply mderiv_const].
    unfold hid, skew, v0, mmul, mid, mzero. cbn [lin]. gcbn. f_equal; ring. }
  eapply deriv_eq; [| |exact (v3at_deriv _ t _ i
     (translation_rate (cframe p) (AA 0 v0) M (fun _ => hid) t Jq qd v0 v0 HM HD VM VD))].
  - intros s. destruct (point6d_error g p fl (M s) None) as (th' & -> & _). cbn [out].
    rewrite (nth_map_chosen _ _ _ _ _ Ek). unfold v6at, pose6. cbn [fst].
    destruct (Nat.ltb_spec i 3); [|lia]. destruct (cframe p); reflexivity.
  - rewrite v3at_vadd. cbv beta.
    assert (Z : fst (p6_edot (mkP6 (cframe p) (AA 0 v0)) (M t) hid v0 v0) = v0).
    { destruct (cframe p); cbn [p6_edot cframe fst]; [|exact (mapp_v0 _)].
      replace (vsub (cross v0 (vsub (trn hid) (trn (M t)))) v0) with v0; [apply mapp_v0|].
      apply vec3_ext; unfold v0, vsub, cross; gcbn; ring. }
    rewrite Z. destruct i as [|[|]]; cbn; ring.
Qed.

(* ---------------------------------------------------------------- *)
(** ** C89: rotation *)

(** The rate of every selected rotation component, while the error angle
    is below a half turn. [e] is the rotation vector of the error and [w6]
    the full jacobian times the joint velocity; [c] is the deviation of
    the error derivative signal, which is exact unless the error angle is
    strictly between 0 and 1e-4. Missing: an error angle of exactly half a
    turn; and the rotation rows alone are not the rate. *)
Theorem point6d_rotation_rate_partial g p fl (M D : R -> hom) t Jq qd v w :
  (forall s, is_rigid (M s)) -> (forall s, is_rigid (D s)) ->
  body_velocity M t (jvel Jq qd) -> world_velocity D t (v, w) ->
  let dim := length (chosen fl 6) in
  let X := seen (cframe p) (M t) (Some (D t)) in
  let e := rotvec (lin X) in
  let w6 := jvel (p6_LJq (cframe p) (M t) (Some (D t)) Jq) qd in
  ang (matToAA (lin X)) < PI ->
  exists c, vnorm c <= 1 / 10000 * vnorm w /\
    (vnorm e = 0 \/ 1 / 10000 <= vnorm e -> c = v0) /\
    forall k i, nth_error (chosen fl 6) k = Some i -> (3 <= i)%nat ->
    derivable_pt_lim
      (fun s => nth k (out (p6_error g p fl dim (M s) (Some (D s)))) 0) t
      (v3at (mapp (jlog e) (body_of (cframe p) X (snd w6))) (i - 3)
       + nth k (out (p6_errordot g p fl dim (M t) (Some (D t, vlist v ++ vlist w)))) 0
       + v3at c (i - 3)).
Proof.
  intros HM HD VM VD dim X e w6 HX. subst dim.
  set (spin := ref_spin (cframe p) (M t) (D t) w).
  assert (HRX : is_rot (lin X)).
  { unfold X. destruct (cframe p); cbn [seen desired]; apply rel_rigid; auto. }
  assert (Hspin : vnorm spin = vnorm w).
  { unfold spin, ref_spin. unfold vnorm. f_equal.
    assert (K : forall r u, is_rot r -> vdot (mapp (mT r) u) (mapp (mT r) u) = vdot u u).
    { clear. intros r u Hr.
      assert (Q : forall a b, vdot (mapp (mT r) a) b = vdot a (mapp r b))
        by (intros a b; destruct r, a, b; unfold vdot, mapp, mT; gcbn; ring).
      rewrite Q, <- mapp_mmul, (rot_mT_r _ Hr), mapp_id. reflexivity. }
    destruct (cframe p).
    - transitivity (vdot (mapp (mT (lin (M t))) w) (mapp (mT (lin (M t))) w)).
      + destruct (mapp _ w). unfold vdot, vopp. gcbn. ring.
      + apply K, HM.
    - apply K, HD. }
  set (Pi := p6_Pinv (matToAA (lin X))).
  exists (vsub (mapp (jlog e) spin) (mapp Pi spin)).
  destruct (p6_Pinv_jlog (lin X) HRX) as [PJ PI1]. fold Pi e in PJ, PI1.
  pose proof (vnorm_rotvec (lin X) HRX) as En. fold e in En. rewrite <- En in *.
  assert (N0 : 0 <= vnorm e) by apply sqrt_pos.
  assert (W0 : 0 <= vnorm w) by apply sqrt_pos.
  assert (Zs : forall u, vsub u u = v0)
    by (intros u; apply vec3_ext; unfold vsub, v0; gcbn; ring).
  assert (Vz : vnorm v0 = 0).
  { unfold vnorm. replace (vdot v0 v0) with 0 by (unfold vdot, v0; gcbn; ring). apply sqrt_0. }
  assert (EX : vnorm e = 0 \/ 1 / 10000 <= vnorm e ->
               vsub (mapp (jlog e) spin) (mapp Pi spin) = v0).
  { intros [Z|Z].
    - assert (Em : jlog e = mid).
      { unfold jlog. destruct (Req_EM_T (vnorm e) 0); [reflexivity|contradiction]. }
      rewrite PI1, Em; [apply Zs|]. rewrite Z. unfold accuracy. lra.
    - rewrite PJ; [apply Zs|]. unfold accuracy. nra. }
  split; [|split].
  - destruct (Rlt_le_dec (vnorm e) (1 / 10000)) as [L|L].
    + rewrite PI1 by (unfold accuracy; nra). rewrite mapp_id.
      pose proof (jlog_small e spin ltac:(lra)) as B. rewrite Hspin in B.
      replace (vnorm (vsub (mapp (jlog e) spin) spin))
        with (vnorm (vsub spin (mapp (jlog e) spin))).
      * eapply Rle_trans; [exact B|]. apply Rmult_le_compat_r; lra.
      * unfold vnorm. f_equal. destruct (mapp (jlog e) spin), spin.
        unfold vdot, vsub. gcbn. ring.
    + rewrite EX by (right; exact L). rewrite Vz. apply Rmult_le_pos; lra.
  - exact EX.
  - intros k i Ek Hi.
    assert (Hi6 : (i < 6)%nat).
    { apply nth_error_In in Ek. unfold chosen in Ek. apply filter_In in Ek.
      destruct Ek as [Ek _]. apply in_seq in Ek. lia. }
    assert (SEL : exists i, (3 <= i < 6)%nat /\ at_ fl (Z.of_nat i) = Ok true).
    { exists i. split; [lia|]. apply nth_error_In in Ek. unfold chosen in Ek.
      apply filter_In in Ek. rewrite at_flag. f_equal. apply Ek. }
    destruct (point6d_errordot g p fl (M t) (D t) v w) as (th & -> & Hth). cbn [out].
    specialize (Hth SEL). fold X in Hth. subst th.
    rewrite (nth_map_chosen _ _ _ _ _ Ek).
    unfold v6at at 1. destruct (Nat.ltb_spec i 3) as [F|_]; [lia|].
    assert (Ee : snd (p6_edot (mkP6 (cframe p) (matToAA (lin X))) (M t) (D t) v w)
                 = mapp Pi spin).
    { unfold p6_edot, spin, ref_spin, Pi. cbn [cframe error_th].
      destruct (cframe p); cbn [snd]; [|reflexivity].
      destruct (p6_Pinv _), (mapp _ w). unfold mapp, mopp, vopp. gcbn. f_equal; ring. }
    rewrite Ee.
    eapply deriv_eq; [| |exact (v3at_deriv _ t _ (i - 3)
      (rotation_rate (cframe p) M D t Jq qd v w HM HD VM VD ltac:(rewrite <- vnorm_rotvec by exact HRX; exact HX)))].
    + intros s. destruct (point6d_error g p fl (M s) (Some (D s))) as (th' & -> & _).
      cbn [out]. rewrite (nth_map_chosen _ _ _ _ _ Ek). unfold v6at, pose6. cbn [snd].
      destruct (Nat.ltb_spec i 3); [lia|reflexivity].
    + rewrite v3at_vadd. fold X e w6 spin.
      assert (forall a b, v3at a (i - 3) = v3at b (i - 3) + v3at (vsub a b) (i - 3)) as K.
      { intros a b. destruct (i - 3)%nat as [|[|]]; unfold vsub, v3at; cbn [vx vy vz]; ring. }
      rewrite (K (mapp (jlog e) spin) (mapp Pi spin)). ring.
Qed.

(* ---------------------------------------------------------------- *)
(** ** C90: descent *)
Lemma rotvec_fixed m : is_rot m -> mapp m (rotvec m) = rotvec m.
Proof.
  intros Hr. destruct (rot_angle m Hr) as (U & _ & E & _).
  unfold rotvec. rewrite mapp_vscal. f_equal. rewrite <- E at 1.
  destruct (matToAA m) as [a [x y z]]. unfold vdot in U. gcbn.
  unfold mapp, aaToMat, vscal. gcbn. set (s := sin a). set (c := cos a). clearbody s c.
  f_equal; apply Rminus_diag_uniq.
  - transitivity ((1 - c) * x * (x * x + y * y + z * z - 1)); [ring|rewrite U; ring].
  - transitivity ((1 - c) * y * (x * x + y * y + z * z - 1)); [ring|rewrite U; ring].
  - transitivity ((1 - c) * z * (x * x + y * y + z * z - 1)); [ring|rewrite U; ring].
Qed.

Lemma vdot_mT r a b : vdot a (mapp (mT r) b) = vdot (mapp r a) b.
Proof. destruct r, a, b. unfold vdot, mapp, mT. gcbn. ring. Qed.

Lemma body_along f X w : is_rot (lin X) ->
  vdot (rotvec (lin X)) (body_of f X w) = vdot (rotvec (lin X)) w.
Proof.
  intros Hr. destruct f; [|reflexivity]. cbn [body_of].
  now rewrite vdot_mT, rotvec_fixed.
Qed.

Definition sumR (l : list R) : R := fold_right Rplus 0 l.

Lemma dotR_map {A} (f g : A -> R) l :
  dotR (map f l) (map g l) = sumR (map (fun i => f i * g i) l).
Proof. induction l as [|x l IH]; cbn; [reflexivity|]. unfold sumR in IH. now rewrite IH. Qed.

Lemma sumR_app a b : sumR (a ++ b) = sumR a + sumR b.
Proof.
  unfold sumR. induction a as [|x a IH]; cbn [fold_right app]; [ring|]. rewrite IH. ring.
Qed.

Lemma deriv_sumR (f : R -> nat -> R) (d : nat -> R) l t :
  (forall i, In i l -> derivable_pt_lim (fun s => f s i) t (d i)) ->
  derivable_pt_lim (fun s => sumR (map (f s) l)) t (sumR (map d l)).
Proof.
  induction l as [|x l IH]; intros Hd; cbn.
  - apply derivable_pt_lim_const.
  - apply (derivable_pt_lim_plus (fun s => f s x) (fun s => sumR (map (f s) l))).
    + apply Hd. left. reflexivity.
    + apply IH. intros i Hi. apply Hd. right. exact Hi.
Qed.

(** A fixed reference, any motion of the robot, a selection that takes the
    three rotation components together or none: the squared error changes at
    the rate 2 e.(J dq/dt), exactly.  In particular a joint velocity that
    achieves J dq/dt = - lambda e makes it decrease exponentially. *)
Theorem point6d_descent g gj p fl (M : R -> hom) D t Jq qd :
  (forall s, is_rigid (M s)) -> is_rigid D ->
  body_velocity M t (jvel Jq qd) ->
  at_ fl 3 = at_ fl 4 -> at_ fl 4 = at_ fl 5 ->
  let dim := length (chosen fl 6) in
  let e s := out (p6_error g p fl dim (M s) (Some D)) in
  let J := rows (p6_jacobian gj p fl dim (M t) (Some D) Jq) in
  ang (matToAA (lin (seen (cframe p) (M t) (Some D)))) < PI ->
  derivable_pt_lim (fun s => dotR (e s) (e s)) t
    (2 * dotR (e t) (map (fun row => dotR row qd) J)) /\
  (forall lambda, map (fun row => dotR row qd) J = map (Rmult (- lambda)) (e t) ->
   derivable_pt_lim (fun s => dotR (e s) (e s)) t (- 2 * lambda * dotR (e t) (e t))).
Proof.
  intros HM HD VM F34 F45 dim e J HX.
  assert (MAIN : derivable_pt_lim (fun s => dotR (e s) (e s)) t
    (2 * dotR (e t) (map (fun row => dotR row qd) J))).
  { set (X := fun s => seen (cframe p) (M s) (Some D)).
    assert (Ee : forall s, e s = map (v6at (pose6 (X s))) (chosen fl 6)).
    { intros s. unfold e, dim. destruct (point6d_error g p fl (M s) (Some D)) as (th & -> & _).
      reflexivity. }
    set (w6 := jvel (p6_LJq (cframe p) (M t) (Some D) Jq) qd).
    assert (EJ : map (fun row => dotR row qd) J = map (v6at w6) (chosen fl 6)).
    { unfold J, dim. rewrite point6d_jacobian. cbn [rows]. rewrite map_map.
      apply map_ext. intros i. apply jrow_dot. }
    assert (HDs : forall s : R, is_rigid D) by (intros; exact HD).
    assert (VD : world_velocity (fun _ => D) t (v0, v0)).
    { split; cbn [fst snd]; [apply vderiv_const|].
      eapply mderiv_eq; [reflexivity| |apply mderiv_const].
      destruct (lin D). unfold skew, v0, mmul, mzero. gcbn. f_equal; ring. }
    assert (TR : vderiv (fun s => trn (X s)) t (fst w6)).
    { eapply vderiv_eq; [reflexivity| |
        exact (translation_rate (cframe p) (AA 0 v0) M (fun _ => D) t Jq qd v0 v0 HM HDs VM VD)].
      cbv beta. fold w6.
      assert (Z : fst (p6_edot (mkP6 (cframe p) (AA 0 v0)) (M t) D v0 v0) = v0).
      { destruct (cframe p); cbn [p6_edot cframe fst]; [|exact (mapp_v0 _)].
        replace (vsub (cross v0 (vsub (trn D) (trn (M t)))) v0) with v0; [apply mapp_v0|].
        apply vec3_ext; unfold v0, vsub, cross; gcbn; ring. }
      rewrite Z. apply vadd_v0_r. }
    set (dr := mapp (jlog (rotvec (lin (X t)))) (body_of (cframe p) (X t) (snd w6))).
    assert (RR : vderiv (fun s => rotvec (lin (X s))) t dr).
    { eapply vderiv_eq; [reflexivity| |
        exact (rotation_rate (cframe p) M (fun _ => D) t Jq qd v0 v0 HM HDs VM VD HX)].
      cbv beta. fold w6 (X t).
      assert (Z : ref_spin (cframe p) (M t) D v0 = v0).
      { destruct (cframe p); cbn [ref_spin]; rewrite mapp_v0; [|reflexivity].
        apply vec3_ext; unfold v0, vopp; gcbn; ring. }
      rewrite Z, mapp_v0. apply vadd_v0_r. }
    assert (HRX : is_rot (lin (X t))).
    { unfold X. destruct (cframe p); cbn [seen desired]; apply rel_rigid; auto. }
    rewrite EJ, Ee, dotR_map.
    assert (DS : derivable_pt_lim (fun s => sumR (map
          (fun i => v6at (pose6 (X s)) i * v6at (pose6 (X s)) i) (chosen fl 6))) t
        (sumR (map (fun i => v6at (fst w6, dr) i * v6at (pose6 (X t)) i
                   + v6at (pose6 (X t)) i * v6at (fst w6, dr) i) (chosen fl 6)))).
    { apply (deriv_sumR (fun s i => v6at (pose6 (X s)) i * v6at (pose6 (X s)) i)).
      intros i _. apply (deriv_mult (fun s => v6at (pose6 (X s)) i) (fun s => v6at (pose6 (X s)) i));
        unfold v6at, pose6; cbn [fst snd];
        destruct (i <? 3)%nat;
        [exact (v3at_deriv _ t _ _ TR)|exact (v3at_deriv _ t _ _ RR)
        |exact (v3at_deriv _ t _ _ TR)|exact (v3at_deriv _ t _ _ RR)]. }
    eapply deriv_eq; [| |exact DS].
    { intros s. rewrite Ee, dotR_map. reflexivity. }
    rewrite chosen_split, !map_app, !sumR_app, Rmult_plus_distr_l.
    assert (HALF : forall l (f h : nat -> R), (forall i, In i l -> f i = 2 * h i) ->
              sumR (map f l) = 2 * sumR (map h l)).
    { clear. induction l as [|x l IH]; intros f h Hf; cbn; [ring|]. unfold sumR in IH.
      rewrite (IH f h), (Hf x); [ring|left; reflexivity|intros i Hi; apply Hf; right; exact Hi]. }
    f_equal.
    - apply HALF. intros i Hi. apply filter_In in Hi. destruct Hi as [Hi _].
      apply in_seq in Hi. unfold v6at, pose6. cbn [fst snd].
      destruct (Nat.ltb_spec i 3); [ring|lia].
    - change 3%Z with (Z.of_nat 3) in F34. change 4%Z with (Z.of_nat 4) in F34, F45.
      change 5%Z with (Z.of_nat 5) in F45. rewrite !at_flag in F34, F45.
      injection F34 as F34. injection F45 as F45.
      cbn [seq filter]. rewrite F34, F45. destruct (flag fl 5); [|cbn; ring].
      pose proof (body_along (cframe p) (X t) (snd w6) HRX) as BA.
      pose proof (jlog_along (rotvec (lin (X t))) (body_of (cframe p) (X t) (snd w6))) as JA.
      rewrite BA in JA. fold dr in JA. unfold vdot in JA.
      cbn [map sumR fold_right]. unfold v6at, pose6. cbn [Nat.ltb Nat.leb Nat.sub fst snd v3at].
      lra. }
  split; [exact MAIN|]. intros lambda El. rewrite El in MAIN.
  replace (- 2 * lambda * dotR (e t) (e t)) with (2 * dotR (e t) (map (Rmult (- lambda)) (e t)));
    [exact MAIN|].
  generalize (e t). intros l. induction l as [|x l IH]; cbn; [ring|]. rewrite Rmult_plus_distr_l, IH.
  ring.
Qed.

(** The rotation rows of the jacobian alone are not the derivative of the
    rotation components of the error: at a quarter turn about z, turning about
    the body x axis. *)
Lemma matToAA_aaToMat th u : 0 < th < PI -> vdot u u = 1 ->
  matToAA (aaToMat (AA th u)) = AA th u.
Proof.
  intros Hth U. set (A := AA th u).
  assert (UA : unit_axis A) by exact U.
  destruct (aa_canonical th u Hth U) as [K1 K2].
  destruct (quat_of_unique (aaToMat A) (aaToQuat A) (matToQuat (aaToMat A))) as [E | E].
  - rewrite <- (aaToMat_quat A UA). apply quat_of_self, aaToQuat_unit, UA.
  - apply matToQuat_of, aaToMat_rot, UA.
  - unfold matToAA. rewrite E. exact K1.
  - unfold matToAA. rewrite E. exact K2.
Qed.

Lemma spin_x : mderiv (fun s => aaToMat (AA s unitX)) 0 (skew unitX).
Proof.
  unfold aaToMat, unitX, skew, vscal, mderiv. gcbn.
  assert (DS : derivable_pt_lim sin 0 1) by (rewrite <- cos_0; apply derivable_pt_lim_sin).
  assert (DC : derivable_pt_lim cos 0 0).
  { replace 0 with (- sin 0) at 2 by (rewrite sin_0; ring). apply derivable_pt_lim_cos. }
  pose proof (derivable_pt_lim_const 1 0) as D1.
  pose proof (derivable_pt_lim_const 0 0) as D0.
  pose proof (derivable_pt_lim_opp sin 0 1 DS) as DO.
  repeat split.
  1: eapply deriv_eq; [| |exact D1]; [intros s; unfold fct_cte; ring|ring].
  1-3: eapply deriv_eq; [| |exact D0]; [intros s; unfold fct_cte; ring|ring].
  1: eapply deriv_eq; [| |exact DC]; [intros s; ring|ring].
  1: eapply deriv_eq; [| |exact DO]; [intros s; unfold opp_fct; ring|ring].
  1: eapply deriv_eq; [| |exact D0]; [intros s; unfold fct_cte; ring|ring].
  1: eapply deriv_eq; [| |exact DS]; [intros s; ring|ring].
  1: eapply deriv_eq; [| |exact DC]; [intros s; ring|ring].
Qed.

Theorem point6d_rotation_jacobian_refuted :
  exists (M : R -> hom) Jq qd,
    (forall s, is_rigid (M s)) /\ body_velocity M 0 (jvel Jq qd) /\
    let p := mkP6 frame_default (AA 0 v0) in
    let fl := mkFlags [] true in
    ang (matToAA (lin (seen (cframe p) (M 0) (Some hid)))) < PI /\
    forall g gj, ~ derivable_pt_lim
      (fun s => nth 3 (out (p6_error g p fl 6 (M s) (Some hid))) 0) 0
      (dotR (nth 3 (rows (p6_jacobian gj p fl 6 (M 0) (Some hid) Jq)) []) qd).
Proof.
  pose proof PI_RGT_0 as HP.
  set (Z := aaToMat (AA (PI / 2) unitZ)).
  set (M := fun s => H (mmul Z (aaToMat (AA s unitX))) v0).
  assert (UZ : vdot unitZ unitZ = 1) by (unfold vdot, unitZ; gcbn; ring).
  assert (UX : vdot unitX unitX = 1) by (unfold vdot, unitX; gcbn; ring).
  assert (HM : forall s, is_rigid (M s)).
  { intros s. apply rot_mul; apply aaToMat_rot; assumption. }
  assert (A0 : aaToMat (AA 0 unitX) = mid).
  { unfold aaToMat, unitX, vscal, mid. gcbn. rewrite sin_0, cos_0. f_equal; ring. }
  assert (EM0 : lin (M 0) = Z) by (unfold M; cbn [lin]; rewrite A0; apply mmul_1_r).
  assert (EV : jvel [(v0, unitX)] [1] = (v0, unitX)).
  { cbn [jvel fst snd]. unfold v0, unitX, vadd, vscal. gcbn. f_equal; f_equal; ring. }
  assert (VM : body_velocity M 0 (jvel [(v0, unitX)] [1])).
  { rewrite EV. split; cbn [fst snd].
    - rewrite mapp_v0. exact (vderiv_const v0 0).
    - rewrite EM0. unfold M. cbn [lin].
      eapply mderiv_eq; [reflexivity| |
        exact (mderiv_mmul (fun _ => Z) (fun s => aaToMat (AA s unitX)) 0 _ _
                 (mderiv_const Z 0) spin_x)].
      cbv beta. now rewrite mmul_zero_l, madd_zero_l. }
  exists M, [(v0, unitX)], [1].
  split; [exact HM|]. split; [exact VM|]. cbv zeta.
  set (p := mkP6 frame_default (AA 0 v0)).
  assert (EX : lin (seen (cframe p) (M 0) (Some hid)) = Z).
  { cbn [p cframe seen desired frame_default]. unfold rel. rewrite hinv_hid, hmul_id_l. exact EM0. }
  assert (EA : matToAA Z = AA (PI / 2) unitZ).
  { apply matToAA_aaToMat; [lra|exact UZ]. }
  assert (HX : ang (matToAA (lin (seen (cframe p) (M 0) (Some hid)))) < PI).
  { rewrite EX, EA. gcbn. lra. }
  split; [exact HX|]. intros g gj HD.
  assert (HDs : forall s : R, is_rigid hid) by (intros; exact rot_id).
  assert (VD : world_velocity (fun _ => hid) 0 (v0, v0)).
  { split; cbn [fst snd]; [apply vderiv_const|].
    eapply mderiv_eq; [reflexivity| |apply mderiv_const].
    unfold hid, skew, v0, mmul, mid, mzero. cbn [lin]. gcbn. f_equal; ring. }
  pose proof (rotation_rate (cframe p) M (fun _ => hid) 0 [(v0, unitX)] [1] v0 v0
                HM HDs VM VD HX) as (RX & _).
  cbv beta in RX.
  set (fl := mkFlags [] true) in HD.
  assert (EF : forall s, nth 3 (out (p6_error g p fl 6 (M s) (Some hid))) 0
               = vx (rotvec (lin (seen (cframe p) (M s) (Some hid))))).
  { intros s. destruct (point6d_error g p fl (M s) (Some hid)) as (th & E & _).
    change (length (chosen fl 6)) with 6%nat in E. rewrite E. reflexivity. }
  apply (derivable_pt_lim_ext _ _ _ _ EF) in HD.
  pose proof (point6d_jacobian gj p fl (M 0) (Some hid) [(v0, unitX)]) as EJ.
  change (length (chosen fl 6)) with 6%nat in EJ. rewrite EJ in HD. cbn [rows] in HD.
  change (chosen fl 6) with [0; 1; 2; 3; 4; 5]%nat in HD. cbn [map nth] in HD.
  rewrite jrow_dot in HD. change (v6at ?x 3) with (vx (snd x)) in HD.
  pose proof (jvel_desired (M 0) hid [(v0, unitX)] [1] (HM 0) rot_id) as JD.
  cbv zeta in JD. change (cframe p) with FRAME_DESIRED in *. rewrite JD in HD, RX.
  cbn [snd body_of ref_spin] in HD, RX. rewrite EV in HD, RX. cbn [snd] in HD, RX.
  assert (ER : lin (rel hid (M 0)) = Z) by exact EX.
  cbn [seen desired] in RX. rewrite ER in HD, RX.
  assert (HZ : is_rot Z) by (apply aaToMat_rot; exact UZ).
  rewrite <- (mapp_mmul (mT Z) Z), (rot_mT_l _ HZ), mapp_id, mapp_v0 in RX.
  pose proof (uniqueness_limite _ _ _ _ HD RX) as CONTRA.
  unfold rotvec in CONTRA. rewrite EA in CONTRA. cbn [ang axis] in CONTRA.
  rewrite (jlog_aa (PI / 2) unitZ unitX ltac:(lra) UZ) in CONTRA.
  replace (vopp v0) with v0 in CONTRA by (apply vec3_ext; unfold vopp, v0; gcbn; ring).
  rewrite mapp_v0 in CONTRA.
  unfold Z, aaToMat, mapp, unitX, unitZ, vscal, vadd, vsub, cross, vdot, v0 in CONTRA.
  cbn [ang axis vx vy vz m00 m01 m02 m10 m11 m12 m20 m21 m22] in CONTRA.
  rewrite cos_PI2, sin_PI2 in CONTRA.
  lra.
Qed.

(* ---------------------------------------------------------------- *)
(** ** A case that meets the hypotheses *)

(** The operational point makes a quarter turn about z with respect to the
    world and spins about its own x axis; the reference spins about the x axis
    of the world and moves along it. *)
Definition ex_M (s : R) : hom :=
  H (mmul (aaToMat (AA (PI / 2) unitZ)) (aaToMat (AA s unitX))) v0.
Definition ex_D (s : R) : hom := H (aaToMat (AA s unitX)) (V3 s 0 0).

Lemma unitX_unit : vdot unitX unitX = 1.
Proof. unfold vdot, unitX. gcbn. ring. Qed.
Lemma unitZ_unit : vdot unitZ unitZ = 1.
Proof. unfold vdot, unitZ. gcbn. ring. Qed.
Lemma no_turn : aaToMat (AA 0 unitX) = mid.
Proof. unfold aaToMat, unitX, vscal, mid. gcbn. rewrite sin_0, cos_0. f_equal; ring. Qed.

Example ex_rigid : (forall s, is_rigid (ex_M s)) /\ (forall s, is_rigid (ex_D s)).
Proof.
  split; intros s; [apply rot_mul|]; apply aaToMat_rot; first [exact unitX_unit | exact unitZ_unit].
Qed.

Example ex_velocities :
  body_velocity ex_M 0 (jvel [(v0, unitX)] [1]) /\ world_velocity ex_D 0 (unitX, unitX).
Proof.
  split.
  - replace (jvel [(v0, unitX)] [1]) with (v0, unitX).
    2:{ cbn [jvel fst snd]. unfold v0, unitX, vadd, vscal. gcbn. f_equal; f_equal; ring. }
    split; cbn [fst snd].
    + rewrite mapp_v0. exact (vderiv_const v0 0).
    + unfold ex_M. cbn [lin]. rewrite no_turn, mmul_1_r.
      eapply mderiv_eq; [reflexivity| |
        exact (mderiv_mmul (fun _ => aaToMat (AA (PI / 2) unitZ))
                 (fun s => aaToMat (AA s unitX)) 0 _ _ (mderiv_const _ 0) spin_x)].
      cbv beta. now rewrite mmul_zero_l, madd_zero_l.
  - split; cbn [fst snd].
    + unfold vderiv, ex_D, unitX. cbn [trn vx vy vz].
      split; [apply derivable_pt_lim_id|]. split; apply derivable_pt_lim_const.
    + unfold ex_D. cbn [lin]. rewrite no_turn, mmul_1_r. exact spin_x.
Qed.

Example ex_angle :
  ang (matToAA (lin (seen FRAME_DESIRED (ex_M 0) (Some (ex_D 0))))) < PI.
Proof.
  pose proof PI_RGT_0 as HP.
  cbn [seen desired]. unfold rel, hinv, hmul, ex_M, ex_D. cbn [lin trn].
  rewrite no_turn, mmul_1_r.
  replace (mmul _ _) with (aaToMat (AA (PI / 2) unitZ)).
  - rewrite matToAA_aaToMat; [gcbn; lra|lra|exact unitZ_unit].
  - symmetry. rewrite <- (mmul_1_l (aaToMat (AA (PI / 2) unitZ))) at 2. f_equal.
    exact (f_equal lin hinv_hid).
Qed.

(** There the angular error is really moving: its third coordinate is pi/2. *)
Example ex_error : forall g, exists p' e,
  p6_error g (mkP6 FRAME_DESIRED (AA 0 v0)) (mkFlags [] true) 6 (ex_M 0) (Some hid) = Ok (p', e) /\
  nth 5 e 0 = PI / 2.
Proof.
  intros g. pose proof PI_RGT_0 as HP.
  destruct (point6d_error g (mkP6 FRAME_DESIRED (AA 0 v0)) (mkFlags [] true) (ex_M 0) (Some hid))
    as (th & E & _).
  change (length (chosen (mkFlags [] true) 6)) with 6%nat in E. eexists _, _. split; [exact E|].
  change (vz (rotvec (lin (rel hid (ex_M 0)))) = PI / 2).
  unfold rel. rewrite hinv_hid, hmul_id_l. unfold ex_M. cbn [lin].
  rewrite no_turn, mmul_1_r. unfold rotvec.
  rewrite matToAA_aaToMat by (try exact unitZ_unit; lra). unfold unitZ, vscal. gcbn. ring.
Qed.

Print Assumptions point6d_dimension.
Print Assumptions point6d_error.
Print Assumptions point6d_jacobian.
Print Assumptions point6d_errordot.
Print Assumptions point6d_errordot_noref.
Print Assumptions point6d_frame.
Print Assumptions point6d_keep.
Print Assumptions point6d_translation_rate.
Print Assumptions point6d_translation_rate_noref.
Print Assumptions point6d_rotation_rate_partial.
Print Assumptions point6d_descent.
Print Assumptions point6d_rotation_jacobian_refuted.
