(** C60 (admittance control) and C83 (workspace clamping). *)
From Coq Require Import String List Arith Lia ZArith Bool Reals Lra Psatz.
From Verif Require Import Base Geom_Model Geom_Facts Geom_Rot Geom_Props Tools_Model Tools_Props Admit_Model.
Import ListNotations.
Local Open Scope R_scope.

(** ** C60 *)
Lemma six_inv v n : six v = Ok n -> length v = 6%nat /\ unsix n = v.
Proof.
  destruct v as [|a [|b [|c [|d [|e [|f [|g v]]]]]]]; cbn; try discriminate.
  intros [= <-]. split; reflexivity.
Qed.

Lemma six_ok v : length v = 6%nat -> exists n, six v = Ok n /\ unsix n = v.
Proof.
  destruct v as [|a [|b [|c [|d [|e [|f [|g v]]]]]]]; cbn; intros H; try discriminate.
  eexists; split; reflexivity.
Qed.

(** Saturation of one coefficient with a non-negative bound. *)
Definition clip (x s : R) : R := Rmax (- s) (Rmin s x).

Lemma ad_sat1_clip x s : 0 <= s -> ad_sat1 x s = clip x s.
Proof.
  intros H. unfold ad_sat1, clip.
  destruct (Rltb_spec s x).
  - rewrite (Rmin_left s x) by lra. destruct (Rltb_spec s (- s)); [lra|]. now rewrite Rmax_right by lra.
  - rewrite (Rmin_right s x) by lra. destruct (Rltb_spec x (- s)); [rewrite Rmax_left|rewrite Rmax_right]; lra.
Qed.

Lemma ad_w_dq_spec a i :
  length (ad_wdq a) = 6%nat -> length (ad_wforce a) = 6%nat -> length (i_fdes i) = 6%nat ->
  length (i_Kp i) = 6%nat -> length (i_Kd i) = 6%nat -> length (i_sat i) = 6%nat ->
  exists w, ad_w_dq a i = Ok w /\ length w = 6%nat /\
    forall k, (k < 6)%nat -> nth k w 0 =
      ad_sat1 (nth k (ad_wdq a) 0 + ad_dt a * (nth k (i_Kp i) 0 * (nth k (i_fdes i) 0 - nth k (ad_wforce a) 0))
               - nth k (i_Kd i) 0 * nth k (ad_wdq a) 0) (nth k (i_sat i) 0).
Proof.
  intros A B C D E F. unfold ad_w_dq.
  destruct (six_ok _ B) as (? & -> & _). destruct (six_ok _ C) as (? & -> & _).
  destruct (six_ok _ D) as (? & -> & _). destruct (six_ok _ E) as (? & -> & _).
  destruct (six_ok _ F) as (? & -> & _). cbn [bind].
  destruct (zipR_ok Rminus (i_fdes i) (ad_wforce a)) as (e & -> & L1 & N1); [congruence|]. cbn [bind].
  destruct (zipR_ok Rmult (i_Kp i) e) as (ke & -> & L2 & N2); [congruence|]. cbn [bind].
  destruct (zipR_ok Rplus (ad_wdq a) (scaleR (ad_dt a) ke)) as (s & -> & L3 & N3);
    [unfold scaleR; rewrite map_length; congruence|]. cbn [bind].
  destruct (zipR_ok Rmult (i_Kd i) (ad_wdq a)) as (kd & -> & L4 & N4); [congruence|]. cbn [bind].
  destruct (zipR_ok Rminus s kd) as (w & -> & L5 & N5); [congruence|]. cbn [bind].
  assert (Nw : forall k, (k < 6)%nat -> nth k w 0 =
     nth k (ad_wdq a) 0 + ad_dt a * (nth k (i_Kp i) 0 * (nth k (i_fdes i) 0 - nth k (ad_wforce a) 0))
               - nth k (i_Kd i) 0 * nth k (ad_wdq a) 0).
  { intros k Hk. rewrite N5, N3, N4 by lia. unfold scaleR. rewrite nth_map0 by lia.
    rewrite N2, N1 by lia. ring. }
  destruct (ofor_range_ind (fun j r => length r = 6%nat /\
       (forall k, (k < j)%nat -> nth k r 0 = ad_sat1 (nth k w 0) (nth k (i_sat i) 0)) /\
       (forall k, (j <= k)%nat -> nth k r 0 = nth k w 0)) 0 6
       (fun k w => let* x := vget w k in let* s := vget (i_sat i) k in vset w k (ad_sat1 x s)) w)
    as (r & Er & Lr & Pr & _).
  - lia.
  - split; [congruence|]. split; [lia|reflexivity].
  - intros j r Hj (L & P & Q).
    rewrite (vget_ok r j 0) by lia. rewrite (vget_ok (i_sat i) j 0) by lia. cbn [bind].
    unfold vset. destruct (Nat.ltb_spec j (length r)); [|lia]. eexists; split; [reflexivity|].
    rewrite upd_length. split; [exact L|]. split; intros k Hk; rewrite nth_upd.
    + destruct (Nat.eqb_spec j k) as [<-|N].
      * destruct (Nat.ltb_spec j (length r)); [|lia]. cbn. now rewrite Q.
      * cbn. apply P. lia.
    + destruct (Nat.eqb_spec j k); [lia|]. cbn. apply Q. lia.
  - exists r. split; [exact Er|]. split; [exact Lr|]. intros k Hk. rewrite Pr by lia. now rewrite Nw.
Qed.

(** Reachable states: after [init] succeeds the world velocity has six coefficients, and a world
    force is known as soon as one evaluation had a fresh force. *)
Definition ad_ok (a : adm) : Prop :=
  ad_init a = true -> ad_n a = Some 6%nat /\ length (ad_wdq a) = 6%nat.

Lemma ad_cmd_ok c a a' : ad_ok a -> ad_cmd a c = Ok a' -> ad_ok a'.
Proof.
  unfold ad_ok, ad_cmd. intros H. destruct c as [p dt| |f i].
  - intros [= <-]. unfold ad_do_init. destruct p; [cbn; auto|exact H].
  - unfold ad_reset. destruct (ad_n a) as [n|]; [|discriminate]. intros [= <-]. cbn. intros Hi.
    destruct (H Hi) as [[= ->] _]. split; [reflexivity|]. apply repeat_length.
  - unfold ad_step. destruct (ad_init a) eqn:Ei; [|intros [= <-]; rewrite Ei; discriminate].
    destruct (H eq_refl) as [Hn Hl].
    destruct (if f then ad_w_force a i else Ok a) as [a1| |] eqn:E1; cbn [bind]; try discriminate.
    assert (Hn1 : ad_n a1 = Some 6%nat).
    { destruct f; [|congruence]. unfold ad_w_force in E1. rewrite Ei in E1.
      destruct (six (i_force i)); cbn [bind] in E1; try discriminate. injection E1 as <-. exact Hn. }
    destruct (ad_w_dq a1 i) as [w| |] eqn:E2; cbn [bind]; try discriminate.
    destruct (six w) as [n| |] eqn:E3; cbn [bind]; try discriminate.
    intros [= <-] _. cbn. split; [exact Hn1|]. apply six_inv in E3. apply E3.
Qed.

(** Inputs of the right sizes. *)
Definition sizes6 (i : adin) : Prop :=
  length (i_Kp i) = 6%nat /\ length (i_Kd i) = 6%nat /\ length (i_sat i) = 6%nat /\
  length (i_force i) = 6%nat /\ length (i_fdes i) = 6%nat.

(** The measured force, moved to the world frame. *)
Definition world_force (i : adin) : list R :=
  match i_force i with
  | [a; b; c; d; e; f] => unsix (force_act (i_sensor i) (V3 a b c, V3 d e f))
  | _ => []
  end.

Lemma ad_step_law a i : ad_ok a -> ad_init a = true -> sizes6 i -> Forall (fun s => 0 <= s) (i_sat i) ->
  exists a', ad_cmd a (AStep true i) = Ok a' /\ ad_ok a' /\ ad_init a' = true /\ ad_dt a' = ad_dt a /\
    ad_wforce a' = world_force i /\ length (ad_wdq a') = 6%nat /\
    (exists n, unsix n = ad_wdq a' /\ ad_dq a' = unsix (motion_actInv (i_op i) n)) /\
    forall k, (k < 6)%nat ->
      - nth k (i_sat i) 0 <= nth k (ad_wdq a') 0 <= nth k (i_sat i) 0 /\
      nth k (ad_wdq a') 0 =
        clip (nth k (ad_wdq a) 0
              + ad_dt a * (nth k (i_Kp i) 0 * (nth k (i_fdes i) 0 - nth k (world_force i) 0))
              - nth k (i_Kd i) 0 * nth k (ad_wdq a) 0) (nth k (i_sat i) 0).
Proof.
  intros Hok Hi (A & B & C & D & E) Hs.
  destruct (Hok Hi) as [Hn Hl].
  assert (X : exists a', ad_cmd a (AStep true i) = Ok a' /\ ad_init a' = true /\ ad_dt a' = ad_dt a /\
    ad_wforce a' = world_force i /\ length (ad_wdq a') = 6%nat /\
    (exists n, unsix n = ad_wdq a' /\ ad_dq a' = unsix (motion_actInv (i_op i) n)) /\
    forall k, (k < 6)%nat -> nth k (ad_wdq a') 0 =
        ad_sat1 (nth k (ad_wdq a) 0
              + ad_dt a * (nth k (i_Kp i) 0 * (nth k (i_fdes i) 0 - nth k (world_force i) 0))
              - nth k (i_Kd i) 0 * nth k (ad_wdq a) 0) (nth k (i_sat i) 0)).
  { cbn [ad_cmd]. unfold ad_step, ad_w_force. rewrite Hi.
    destruct (six_ok _ D) as (f & Ef & _). rewrite Ef. cbn [bind].
    assert (Ewf : unsix (force_act (i_sensor i) f) = world_force i).
    { unfold world_force. destruct (i_force i) as [|u0 [|u1 [|u2 [|u3 [|u4 [|u5 [|u6 l]]]]]]]; cbn in Ef; try discriminate.
      now injection Ef as <-. }
    rewrite Ewf. set (a1 := mkAdm true (ad_n a) (ad_dt a) (ad_wdq a) (world_force i) (ad_dq a)).
    destruct (ad_w_dq_spec a1 i) as (w & Ew & Lw & Nw); try assumption; [cbn; now rewrite <- Ewf|].
    rewrite Ew. cbn [bind]. destruct (six_ok w Lw) as (n & En & Un). rewrite En. cbn [bind].
    eexists. split; [reflexivity|]. cbn [ad_init ad_dt ad_wforce ad_wdq ad_dq].
    repeat (split; [first [reflexivity | exact Lw | now exists n]|]). exact Nw. }
  destruct X as (a' & X1 & X2 & X3 & X4 & X5 & X6 & X7).
  exists a'. split; [exact X1|]. split; [eapply ad_cmd_ok; [exact Hok|exact X1]|].
  repeat (split; [assumption|]). intros k Hk. rewrite X7 by exact Hk.
  assert (Hsk : 0 <= nth k (i_sat i) 0).
  { rewrite Forall_forall in Hs. apply Hs, nth_In. lia. }
  rewrite ad_sat1_clip by exact Hsk. split; [|reflexivity]. unfold clip, Rmax, Rmin.
  repeat destruct Rle_dec; lra.
Qed.

Lemma ad_reach_ok h a : ofold ad_cmd h ad_start = Ok a -> ad_ok a.
Proof.
  assert (G : forall h s, ad_ok s -> ofold ad_cmd h s = Ok a -> ad_ok a).
  { clear h. induction h as [|c h IH]; intros s Hs' Hf; cbn in Hf.
    - injection Hf as <-. exact Hs'.
    - destruct (ad_cmd s c) as [s'| |] eqn:Ec; cbn [bind] in Hf; try discriminate.
      eapply IH; [|exact Hf]. eapply ad_cmd_ok; eassumption. }
  intros H. eapply G; [|exact H]. unfold ad_ok. cbn. discriminate.
Qed.

(** After any history of commands and evaluations: an evaluation with
    six-dimensional inputs, a fresh force and a non-negative saturation is
    defined, follows the control law, and the world velocity it gives is
    within the saturation; the output is that velocity in the frame of the
    operational point. Missing: the bound on the output itself; false of
    the code, which bounds the velocity seen from the world. *)
Theorem admittance_bounded_partial h a i :
  ofold ad_cmd h ad_start = Ok a -> ad_init a = true -> sizes6 i -> Forall (fun s => 0 <= s) (i_sat i) ->
  exists a', ad_cmd a (AStep true i) = Ok a' /\ length (ad_wdq a') = 6%nat /\
    (exists n, unsix n = ad_wdq a' /\ ad_dq a' = unsix (motion_actInv (i_op i) n)) /\
    forall k, (k < 6)%nat ->
      - nth k (i_sat i) 0 <= nth k (ad_wdq a') 0 <= nth k (i_sat i) 0 /\
      nth k (ad_wdq a') 0 =
        clip (nth k (ad_wdq a) 0
              + ad_dt a * (nth k (i_Kp i) 0 * (nth k (i_fdes i) 0 - nth k (world_force i) 0))
              - nth k (i_Kd i) 0 * nth k (ad_wdq a) 0) (nth k (i_sat i) 0).
Proof.
  intros Hh Hi Hz Hs.
  destruct (ad_step_law a i (ad_reach_ok _ _ Hh) Hi Hz Hs) as (a' & X1 & _ & _ & _ & _ & X5 & X6 & X7).
  exists a'. auto.
Qed.

(** A negative saturation is accepted; the output then leaves the interval. *)
Theorem admittance_negative_saturation_refuted : exists x s, s < 0 /\ ad_sat1 x s = - s /\ s < ad_sat1 x s.
Proof.
  exists 0, (-1). unfold ad_sat1. destruct (Rltb_spec (-1) 0); [|lra].
  destruct (Rltb_spec (-1) (- -1)); lra.
Qed.

(** Before [init] has succeeded an evaluation changes nothing; [init] and [resetDq] put the world
    velocity to zero; [resetDq] before the first [init] is not defined. *)
Theorem admittance_commands a :
  (ad_init a = false -> forall f i, ad_cmd a (AStep f i) = Ok a) /\
  (forall dt, exists a', ad_cmd a (AInit true dt) = Ok a' /\ ad_init a' = true /\
     ad_dt a' = dt /\ ad_n a' = Some 6%nat /\ ad_wdq a' = [0; 0; 0; 0; 0; 0] /\
     ad_wforce a' = ad_wforce a /\ ad_dq a' = ad_dq a) /\
  (forall dt, ad_cmd a (AInit false dt) = Ok a) /\
  (ad_n a = Some 6%nat -> exists a', ad_cmd a AReset = Ok a' /\ ad_wdq a' = [0; 0; 0; 0; 0; 0] /\
     ad_init a' = ad_init a /\ ad_dt a' = ad_dt a /\ ad_n a' = ad_n a /\
     ad_wforce a' = ad_wforce a /\ ad_dq a' = ad_dq a) /\
  ad_cmd ad_start AReset = UB.
Proof.
  split; [intros H f i; cbn; unfold ad_step; now rewrite H|].
  split; [intros dt; eexists; repeat split; reflexivity|].
  split; [reflexivity|]. split; [|reflexivity].
  intros H. cbn. unfold ad_reset. rewrite H. eexists; repeat split.
Qed.

Lemma clip_id x s : - s <= x <= s -> clip x s = x.
Proof. intros H. unfold clip. rewrite (Rmin_right s x), Rmax_right; lra. Qed.

(** With no force error (the desired force is the measured one at each iteration) and constant
    dampings between 0 and 1, each coefficient of a velocity within the saturation decays
    geometrically, whatever the number of steps, the poses and the other gains. *)
Theorem admittance_decay h a kd sat steps :
  ofold ad_cmd h ad_start = Ok a -> ad_init a = true ->
  Forall (fun i => sizes6 i /\ i_fdes i = world_force i /\ i_Kd i = kd /\ i_sat i = sat) steps ->
  (forall k, (k < 6)%nat -> 0 <= nth k kd 0 <= 1 /\
     - nth k sat 0 <= nth k (ad_wdq a) 0 <= nth k sat 0) -> Forall (fun s => 0 <= s) sat ->
  exists a', ofold ad_cmd (map (AStep true) steps) a = Ok a' /\
    forall k, (k < 6)%nat -> nth k (ad_wdq a') 0 = (1 - nth k kd 0) ^ length steps * nth k (ad_wdq a) 0.
Proof.
  intros Hh Hi Hst Hb Hs. pose proof (ad_reach_ok _ _ Hh) as Hok. clear h Hh.
  revert a Hi Hok Hb. induction steps as [|i steps IH]; intros a Hi Hok Hb.
  - exists a. split; [reflexivity|]. intros k _. cbn. ring.
  - inversion Hst as [|? ? (Z & F & Ek & Es) Hst']; subst.
    destruct (ad_step_law a i Hok Hi Z Hs) as (a1 & X1 & X2 & X3 & _ & _ & _ & _ & X7).
    assert (Y : forall k, (k < 6)%nat -> nth k (ad_wdq a1) 0 = (1 - nth k (i_Kd i) 0) * nth k (ad_wdq a) 0 /\
       - nth k (i_sat i) 0 <= nth k (ad_wdq a1) 0 <= nth k (i_sat i) 0).
    { intros k Hk. destruct (X7 k Hk) as [Xa Xb]. destruct (Hb k Hk) as [Hk1 Hk2]. rewrite F in Xb. rewrite Xb.
      replace (nth k (ad_wdq a) 0 + ad_dt a * (nth k (i_Kp i) 0 * (nth k (world_force i) 0 - nth k (world_force i) 0))
         - nth k (i_Kd i) 0 * nth k (ad_wdq a) 0) with ((1 - nth k (i_Kd i) 0) * nth k (ad_wdq a) 0) by ring.
      rewrite clip_id by (split; nra). split; [reflexivity|]. split; nra. }
    destruct (IH Hst' a1 X3 X2) as (a' & E & P).
    { intros k Hk. split; [apply Hb, Hk|]. apply Y, Hk. }
    exists a'. cbn [map ofold]. rewrite X1. cbn [bind]. split; [exact E|].
    intros k Hk. rewrite P by exact Hk. destruct (Y k Hk) as [-> _]. cbn [length pow]. ring.
Qed.

Lemma clip_lip x y s : Rabs (clip x s - clip y s) <= Rabs (x - y).
Proof. unfold clip, Rmax, Rmin, Rabs. repeat destruct Rle_dec; repeat destruct Rcase_abs; lra. Qed.

Lemma settle_fixed c kd s : 0 < kd -> 0 <= s -> clip (clip (c / kd) s + c - kd * clip (c / kd) s) s = clip (c / kd) s.
Proof.
  intros Hk Hs. set (z := c / kd). assert (Hc : c = kd * z) by (unfold z; field; lra). rewrite Hc. clearbody z. clear Hc c.
  destruct (Rle_dec z s) as [A|A]; [destruct (Rle_dec (- s) z) as [B|B]|].
  - rewrite !(clip_id z s) by lra. replace (z + kd * z - kd * z) with z by ring. apply clip_id. lra.
  - assert (E : clip z s = - s) by (unfold clip; rewrite Rmin_right, Rmax_left; lra). rewrite E.
    assert (- s + kd * z - kd * - s <= - s) by nra. unfold clip. rewrite Rmin_right, Rmax_left; lra.
  - assert (E : clip z s = s) by (unfold clip; rewrite Rmin_left, Rmax_right; lra). rewrite E.
    assert (s <= s + kd * z - kd * s) by nra. unfold clip. rewrite Rmin_left, Rmax_right; lra.
Qed.

(** With a constant force error, constant gains, and dampings between 0 and 2 (excluded), each
    coefficient of the world velocity settles geometrically at dt * Kp * error / Kd, cut at the
    saturation, from any velocity and whatever the poses. *)
Theorem admittance_settles h a kp kd sat err steps :
  ofold ad_cmd h ad_start = Ok a -> ad_init a = true ->
  Forall (fun i => sizes6 i /\ i_Kp i = kp /\ i_Kd i = kd /\ i_sat i = sat /\
     forall k, (k < 6)%nat -> nth k (i_fdes i) 0 - nth k (world_force i) 0 = nth k err 0) steps ->
  (forall k, (k < 6)%nat -> 0 < nth k kd 0 < 2) -> Forall (fun s => 0 <= s) sat ->
  exists a', ofold ad_cmd (map (AStep true) steps) a = Ok a' /\
    forall k, (k < 6)%nat ->
      let w := clip (ad_dt a * nth k kp 0 * nth k err 0 / nth k kd 0) (nth k sat 0) in
      Rabs (nth k (ad_wdq a') 0 - w) <= Rabs (1 - nth k kd 0) ^ length steps * Rabs (nth k (ad_wdq a) 0 - w).
Proof.
  intros Hh Hi Hst Hb Hs. pose proof (ad_reach_ok _ _ Hh) as Hok. clear h Hh.
  revert a Hi Hok. induction steps as [|i steps IH]; intros a Hi Hok.
  - exists a. split; [reflexivity|]. intros k _. cbn. lra.
  - inversion Hst as [|? ? (Hz & Ep & Ek & Es & Ef) Hst']; subst.
    destruct (ad_step_law a i Hok Hi Hz Hs) as (a1 & X1 & X2 & X3 & X4 & _ & _ & _ & X7).
    destruct (IH Hst' a1 X3 X2) as (a' & E & P).
    exists a'. cbn [map ofold]. rewrite X1. cbn [bind]. split; [exact E|].
    intros k Hk. specialize (P k Hk). cbv zeta in P. rewrite X4 in P.
    set (w := clip (ad_dt a * nth k (i_Kp i) 0 * nth k err 0 / nth k (i_Kd i) 0) (nth k (i_sat i) 0)) in *.
    eapply Rle_trans; [exact P|]. cbn [length pow]. rewrite (Rmult_comm (Rabs (1 - _))), Rmult_assoc.
    apply Rmult_le_compat_l; [apply pow_le, Rabs_pos|]. rewrite <- Rabs_mult.
    destruct (X7 k Hk) as [_ ->]. rewrite (Ef k Hk).
    assert (Hsk : 0 <= nth k (i_sat i) 0).
    { rewrite Forall_forall in Hs. apply Hs, nth_In. destruct Hz as (_ & _ & -> & _). exact Hk. }
    assert (Hf : w = clip (w + ad_dt a * nth k (i_Kp i) 0 * nth k err 0 - nth k (i_Kd i) 0 * w) (nth k (i_sat i) 0)).
    { unfold w. symmetry. apply settle_fixed; [apply Hb, Hk|exact Hsk]. }
    rewrite Hf at 1. eapply Rle_trans; [apply clip_lip|]. right. f_equal. ring.
Qed.

(** The output is the world velocity seen from the operational point: for every point of the body
    the velocity is the same vector, and the angular part keeps its norm. *)
Theorem admittance_output_frame m n p : is_rigid m ->
  let d := motion_actInv m n in
  mapp (lin m) (field d p) = field n (happ m p) /\ vnorm (snd d) = vnorm (snd n).
Proof.
  intros Hm. cbv zeta. destruct n as [v w]. unfold motion_actInv, field, happ. cbn [fst snd].
  pose proof (rot_mT_r _ Hm) as Hr. split.
  - rewrite mapp_vadd, (rot_cross _ _ _ Hm), <- !mapp_mmul, Hr, !mapp_id.
    generalize (mapp (lin m) p) (trn m). gring.
  - unfold vnorm. f_equal.
    assert (D : forall a u x, vdot (mapp (mT a) u) x = vdot u (mapp a x)) by (intros; gdest; cbv -[Rplus Rmult Rminus Ropp IZR]; ring).
    rewrite D, <- mapp_mmul, Hr, mapp_id. reflexivity.
Qed.

(** Power is the same in both frames: the world force against the world velocity. *)
Theorem admittance_power m f n : is_rigid m ->
  let wf := force_act m f in
  let d := motion_actInv m n in
  vdot (fst wf) (fst n) + vdot (snd wf) (snd n) = vdot (fst f) (fst d) + vdot (snd f) (snd d).
Proof.
  intros _. cbv zeta. destruct f as [f t], n as [v w]. unfold force_act, motion_actInv. cbn [fst snd].
  destruct m as [l p]. gdest. cbv -[Rplus Rmult Rminus Ropp IZR]. ring.
Qed.

(** The saturation is applied before the change of frame: the output itself is not bounded by it. *)
Theorem admittance_output_bound_refuted : exists h a i a' k,
  ofold ad_cmd h ad_start = Ok a /\ ad_init a = true /\ sizes6 i /\ is_rigid (i_op i) /\
  Forall (fun s => 0 <= s) (i_sat i) /\ ad_cmd a (AStep true i) = Ok a' /\
  (k < 6)%nat /\ nth k (i_sat i) 0 < nth k (ad_dq a') 0.
Proof.
  set (i := mkAdin (repeat 1 6) (repeat 0 6) (repeat 1 6) (repeat 0 6) [0; 0; 0; 1; 0; 0] (H mid (V3 0 10 0)) hid).
  set (a := ad_do_init true 1 ad_start).
  assert (Hz : sizes6 i) by (repeat split).
  assert (Hs : Forall (fun s => 0 <= s) (i_sat i)) by (repeat constructor; lra).
  destruct (admittance_bounded_partial [AInit true 1] a i eq_refl eq_refl Hz Hs) as (a' & E & L & (n & Un & Ed) & P).
  exists [AInit true 1], a, i, a', 2%nat.
  repeat (split; [first [reflexivity | assumption | exact rot_id | lia]|]).
  rewrite Ed. destruct n as [[n0 n1 n2] [n3 n4 n5]].
  assert (G : forall k, (k < 6)%nat -> nth k (unsix (V3 n0 n1 n2, V3 n3 n4 n5)) 0 = nth k [0; 0; 0; 1; 0; 0] 0).
  { intros k Hk. destruct (P k Hk) as [_ Pk]. rewrite Un, Pk.
    do 6 (destruct k as [|k]; [cbn; rewrite clip_id by lra; ring|]). lia. }
  pose proof (G 2%nat ltac:(lia)) as G2. pose proof (G 3%nat ltac:(lia)) as G3. cbn in G2, G3. subst.
  cbn. lra.
Qed.

(** The world force is refreshed only when the force signal has a new value: a move of the sensor
    alone is not seen. *)
Theorem admittance_sensor_pose_refuted : exists h a i a',
  ofold ad_cmd h ad_start = Ok a /\ ad_init a = true /\ sizes6 i /\
  ad_cmd a (AStep false i) = Ok a' /\ ad_wforce a' <> world_force i.
Proof.
  set (i p := mkAdin (repeat 0 6) (repeat 0 6) (repeat 1 6) [1; 0; 0; 0; 0; 0] (repeat 0 6) hid (H mid p)).
  assert (Hz : forall p, sizes6 (i p)) by (repeat split).
  assert (Hs : forall p, Forall (fun s => 0 <= s) (i_sat (i p))) by (intros; repeat constructor; lra).
  set (a := ad_do_init true 1 ad_start).
  destruct (ad_step_law a (i v0) (ad_reach_ok [AInit true 1] a eq_refl) eq_refl (Hz _) (Hs _))
    as (a1 & E1 & Ok1 & I1 & _ & W1 & L1 & _).
  assert (LW : length (ad_wforce a1) = 6%nat) by (rewrite W1; reflexivity).
  destruct (ad_w_dq_spec a1 (i (V3 0 0 1))) as (w & Ew & Lw & _); try assumption; try reflexivity.
  destruct (six_ok w Lw) as (n & En & _).
  exists [AInit true 1; AStep true (i v0)], a1, (i (V3 0 0 1)).
  eexists. split; [cbn [ofold bind]; change (ad_cmd ad_start (AInit true 1)) with (Ok a); cbn [bind]; now rewrite E1|].
  split; [exact I1|]. split; [apply Hz|]. split.
  { cbn [ad_cmd]. unfold ad_step. rewrite I1. cbn [bind]. rewrite Ew. cbn [bind]. rewrite En. cbn [bind]. reflexivity. }
  cbn [ad_wforce]. rewrite W1. unfold world_force. cbn. intros [= H1]. lra.
Qed.

Example admittance_example : exists a i a',
  ofold ad_cmd [AInit true (1 / 2)] ad_start = Ok a /\ sizes6 i /\
  ad_cmd a (AStep true i) = Ok a' /\ nth 0 (ad_wdq a') 0 = 3 /\ nth 1 (ad_wdq a') 0 = -4.
Proof.
  set (i := mkAdin (repeat 2 6) (repeat 1 6) (repeat 4 6) (repeat 0 6) [3; -20; 0; 0; 0; 0] hid hid).
  set (a := ad_do_init true (1 / 2) ad_start).
  assert (Hz : sizes6 i) by (repeat split).
  assert (Hs : Forall (fun s => 0 <= s) (i_sat i)) by (repeat constructor; lra).
  destruct (admittance_bounded_partial [AInit true (1 / 2)] a i eq_refl eq_refl Hz Hs) as (a' & E & _ & _ & P).
  exists a, i, a'. repeat (split; [first [reflexivity | assumption]|]).
  destruct (P 0%nat ltac:(lia)) as [_ P0]. destruct (P 1%nat ltac:(lia)) as [_ P1]. cbn in P0, P1. split.
  - rewrite P0. rewrite clip_id by lra. lra.
  - rewrite P1. unfold clip. rewrite Rmin_right by lra. rewrite Rmax_left; lra.
Qed.

(* ------------------------------------------------------------------ *)
(** ** C83 *)

(** A history of evaluations: pairs of poses and times. *)
Definition clamp_run (h : list (hom * hom * Z)) (c : clamp) : clamp :=
  fold_left (fun c e => c_update c (fst (fst e)) (snd (fst e)) (snd e)) h c.

Definition tadd (a b : twist) : twist :=
  T6 (madd (b00 a) (b00 b)) (madd (b01 a) (b01 b)) (madd (b10 a) (b10 b)) (madd (b11 a) (b11 b)).

Lemma tmul_rot_diag r (a b : mat3) :
  tmul (buildFrom (H (minv r) v0)) (tmul (T6 a mzero mzero b) (buildFrom (H r v0))) =
  T6 (mmul (minv r) (mmul a r)) mzero mzero (mmul (minv r) (mmul b r)).
Proof.
  unfold buildFrom, tmul. cbn [lin trn b00 b01 b10 b11].
  assert (S0 : skew v0 = mzero) by (unfold skew, v0, mzero; cbn; f_equal; ring).
  rewrite S0. repeat first [rewrite mmul_zero_l | rewrite mmul_zero_r | rewrite madd_zero_l | rewrite madd_zero_r]. reflexivity.
Qed.

(** The two matrices: the three translations, and the three rotations. *)
Definition translations : twist := T6 mid mzero mzero mzero.
Definition rotations6 : twist := T6 mzero mzero mzero mid.

Lemma clamp_update_default c posref pos t :
  c_mode c = 1%Z -> c_point c = true -> is_rigid posref -> is_rigid pos -> (c_time c < t)%Z ->
  let c' := c_update c posref pos t in
  c_alpha c' = translations /\ c_alphabar c' = rotations6 /\ c_mode c' = 1%Z /\ c_point c' = true /\ c_time c' = t /\
  exists r, c_handref c' = Some (H r (V3 (325 / 1000) (- 325 / 1000) (35 / 100))) /\ is_rot r.
Proof.
  intros Hm Hp Hr Hq Ht. unfold c_update. destruct (Z.leb_spec t (c_time c)); [lia|].
  rewrite Hm, Hp. unfold c_diag, c_yaw.
  cbn [Z.eqb Pos.eqb c_alpha c_alphabar c_mode c_point c_time c_handref fst snd].
  set (m := hmul (hinv posref) pos).
  assert (Rm : is_rot (lin m)) by (apply (rigid_mul (hinv posref) pos); [apply rigid_inv, Hr|exact Hq]).
  assert (Inv : mmul (minv (lin m)) (lin m) = mid) by (apply minv_l, (rigid_det m Rm)).
  change (lin (hinv m)) with (minv (lin m)). rewrite !tmul_rot_diag.
  change (M3 1 0 0 0 1 0 0 0 1) with mid. change (M3 0 0 0 0 0 0 0 0 0) with mzero.
  rewrite mmul_zero_l, mmul_zero_r, mmul_1_l, Inv.
  repeat (split; [reflexivity|]). eexists. split.
  - do 2 f_equal. unfold vscal, vadd, c_lo, c_hi. cbn. f_equal; lra.
  - repeat apply rot_mul; apply axisMat_rot.
Qed.

(** The reference of the hand after an update, in every mode: the centre of the box, turned about z
    by an angle that goes linearly from -30 to 5 degrees while y crosses the box, then by minus a
    quarter of a turn about y (with the two decimal values that the code writes for pi). *)
Theorem clamp_reference c posref pos t : (c_time c < t)%Z ->
  let y := vy (trn (hmul (hinv posref) pos)) in
  let th := (-30 + 35 * ((y + 4 / 10) / (15 / 100))) * (314159 / 100000 / 180) in
  let q := - (314159256 / 200000000) in
  c_handref (c_update c posref pos t) =
  Some (H (mmul (M3 (cos th) (- sin th) 0 (sin th) (cos th) 0 0 0 1)
                (M3 (cos q) 0 (sin q) 0 1 0 (- sin q) 0 (cos q)))
          (V3 (325 / 1000) (- 325 / 1000) (35 / 100))).
Proof.
  intros Ht y th q. unfold c_update. destruct (Z.leb_spec t (c_time c)); [lia|]. cbn [c_handref].
  fold y. set (yaw := c_theta_min + _). replace yaw with th.
  2:{ unfold yaw, th, c_theta_min, c_theta_max, c_lo, c_hi. cbn [vy]. field. }
  replace (- (314159256 / 100000000) / 2) with q by (unfold q; field).
  do 2 f_equal.
  - cbn [axisMat]. rewrite cos_0, sin_0, Ropp_0. rewrite mmul_1_r || (change (M3 1 0 0 0 1 0 0 0 1) with mid; rewrite mmul_1_r). reflexivity.
  - unfold vscal, vadd, c_lo, c_hi. cbn. f_equal; lra.
Qed.
(** Inside the box the angle lies between the two limits. *)
Theorem clamp_reference_angle y : - 4 / 10 <= y <= - 25 / 100 ->
  let deg := -30 + 35 * ((y + 4 / 10) / (15 / 100)) in -30 <= deg <= 5.
Proof. intros Hy deg. unfold deg. split; lra. Qed.

(** After any history of evaluations with rigid poses, of which one at
    least was at a positive time, the two matrices are complementary
    projectors: the translations and the rotations of the operational
    point, whatever the poses; the reference is a rotation placed at the
    centre of the workspace. Missing: evaluations up to time 0 and the
    smooth mode; false of the code there. *)
Theorem clamp_projectors_partial h :
  Forall (fun e => is_rigid (fst (fst e)) /\ is_rigid (snd (fst e))) h ->
  (exists e, In e h /\ (0 < snd e)%Z) ->
  let c := clamp_run h c_new in
  c_alpha c = translations /\ c_alphabar c = rotations6 /\
  tadd (c_alpha c) (c_alphabar c) = tid /\
  tmul (c_alpha c) (c_alpha c) = c_alpha c /\ tmul (c_alpha c) (c_alphabar c) = T6 mzero mzero mzero mzero /\
  exists r, c_handref c = Some (H r (V3 (325 / 1000) (- 325 / 1000) (35 / 100))) /\ is_rot r.
Proof.
  intros Hr Hpos. cbv zeta.
  assert (G : let c := clamp_run h c_new in
    c_alpha c = translations /\ c_alphabar c = rotations6 /\
    exists r, c_handref c = Some (H r (V3 (325 / 1000) (- 325 / 1000) (35 / 100))) /\ is_rot r).
  { cbv zeta. set (good c := c_alpha c = translations /\ c_alphabar c = rotations6 /\
      exists r, c_handref c = Some (H r (V3 (325 / 1000) (- 325 / 1000) (35 / 100))) /\ is_rot r).
    assert (K : forall h c, c_mode c = 1%Z -> c_point c = true ->
      Forall (fun e => is_rigid (fst (fst e)) /\ is_rigid (snd (fst e))) h ->
      (good c \/ (c_time c <= 0)%Z /\ exists e, In e h /\ (0 < snd e)%Z) -> good (clamp_run h c)).
    { clear. induction h as [|[[pr p] t] h IH]; intros c Hm Hp Hr Hg.
      - destruct Hg as [Hg|(_ & e & [] & _)]. exact Hg.
      - inversion Hr as [|? ? [R1 R2] Hr']; subst. cbn [fst snd] in *. cbn [clamp_run fold_left fst snd].
        destruct (Z_lt_le_dec (c_time c) t) as [Hlt|Hle].
        + destruct (clamp_update_default c pr p t Hm Hp R1 R2 Hlt) as (X1 & X2 & X3 & X4 & X5 & X6).
          apply IH; try assumption. left. unfold good. auto.
        + assert (E : c_update c pr p t = c) by (unfold c_update; destruct (Z.leb_spec t (c_time c)); [reflexivity|lia]).
          rewrite E. apply IH; try assumption. destruct Hg as [Hg|(Ht & e & [He|He] & Hpos)]; [left; exact Hg| |].
          * subst e. cbn [snd] in Hpos. lia.
          * right. split; [exact Ht|]. now exists e. }
    apply K; try reflexivity; [exact Hr|]. right. split; [cbn; lia|exact Hpos]. }
  cbv zeta in G. destruct G as (-> & -> & G). split; [reflexivity|]. split; [reflexivity|].
  unfold translations, rotations6, tadd, tmul, tid. cbn [b00 b01 b10 b11].
  repeat first [rewrite mmul_zero_l | rewrite mmul_zero_r | rewrite mmul_1_l | rewrite madd_zero_l | rewrite madd_zero_r].
  repeat (split; [reflexivity|]). exact G.
Qed.

(** Consequence: the weights do not depend on the position in the workspace. *)
Theorem clamp_ignores_position_refuted posref p1 p2 t :
  is_rigid posref -> is_rigid p1 -> is_rigid p2 -> (0 < t)%Z ->
  c_alpha (c_update c_new posref p1 t) = c_alpha (c_update c_new posref p2 t) /\
  c_alphabar (c_update c_new posref p1 t) = c_alphabar (c_update c_new posref p2 t).
Proof.
  intros A B C D.
  destruct (clamp_update_default c_new posref p1 t eq_refl eq_refl A B D) as (-> & -> & _).
  destruct (clamp_update_default c_new posref p2 t eq_refl eq_refl A C D) as (-> & -> & _). auto.
Qed.

(** Evaluated only at times up to 0 the entity has not computed anything: the second matrix is full
    of ones and the reference is not initialised. *)
Theorem clamp_time_zero_refuted h : Forall (fun e => (snd e <= 0)%Z) h ->
  let c := clamp_run h c_new in
  c_alphabar c = T6 mones mones mones mones /\ c_handref c = None /\
  tadd (c_alpha c) (c_alphabar c) <> tid.
Proof.
  intros Hh. assert (E : clamp_run h c_new = c_new).
  { induction h as [|[[pr p] t] h IH]; [reflexivity|]. inversion Hh; subst. cbn [snd] in *.
    cbn [clamp_run fold_left fst snd]. unfold c_update at 2. cbn [c_time c_new c_start].
    destruct (Z.leb_spec t 0); [|lia]. apply IH. assumption. }
  cbv zeta. rewrite E. split; [reflexivity|]. split; [reflexivity|].
  intros X. apply (f_equal (fun t => m01 (b00 t))) in X. cbn in X. lra.
Qed.

Lemma rot_inv_hid p : hmul (hinv hid) (H mid p) = H mid p.
Proof.
  unfold hmul, hinv, hid. cbn [lin trn]. rewrite (rot_inv mid rot_id).
  assert (T1 : mT mid = mid) by reflexivity. rewrite T1, mmul_1_l, !mapp_id.
  f_equal. destruct p. unfold vadd, vopp, v0. cbn. f_equal; ring.
Qed.

(** With the smooth weights (mode 2) the two matrices are not complementary: hand at the centre of
    the workspace along y and at its border along x. *)
Theorem clamp_smooth_refuted : exists posref pos t,
  is_rigid posref /\ is_rigid pos /\ (0 < t)%Z /\
  let c := c_update (c_start 2 false) posref pos t in
  tadd (c_alpha c) (c_alphabar c) <> tid.
Proof.
  exists hid, (H mid (V3 (15 / 100) (- 4 / 10) (15 / 100))), 1%Z.
  split; [exact rot_id|]. split; [exact rot_id|]. split; [lia|]. cbv zeta. unfold c_update, c_start.
  cbn [c_time c_mode c_point]. destruct (Z.leb_spec 1 0); [lia|].
  cbn [c_alpha c_alphabar c_mode c_point fst snd]. rewrite (rot_inv_hid (V3 (15 / 100) (- 4 / 10) (15 / 100))).
  intros X. apply (f_equal (fun t => m11 (b00 t))) in X. revert X.
  unfold c_diag. cbn [Z.eqb Pos.eqb fst snd tadd b00 madd m11 tid mid trn vy c_lo c_hi].
  assert (E : c_Y (c_dm (- 4 / 10) (- 4 / 10) (- 25 / 100)) c_dm_min c_dm_max = 0).
  { unfold c_Y, c_dm, c_dm_min, c_dm_max.
    rewrite (Rmax_left (- 4 / 10 - - 4 / 10) 0) by lra. rewrite (Rmax_left (- 25 / 100 - - 4 / 10) 0) by lra.
    rewrite Rmin_left by lra.
    destruct (Rltb_spec ((- 4 / 10 - - 4 / 10 - 19 / 1000) / (25 / 1000 - 19 / 1000)) 0) as [_|Hn].
    - destruct (Rltb_spec 1 0); lra.
    - exfalso. apply Hn. lra. }
  rewrite E. unfold c_weight, ediv.
  destruct (Req_EM_T 0 0) as [_|]; [|lra]. destruct (Req_EM_T 1 0) as [|_]; [lra|].
  destruct (Rltb_spec 0 1) as [_|]; [|lra].
  destruct (Req_EM_T (1 - 0) 0) as [|_]; [lra|]. cbn. lra.
Qed.

(** ** The smooth weights (mode 2) *)
(** Signed distance to the closest of two borders. *)
Definition margin (x lo hi : R) : R := Rmin (x - lo) (hi - x).
(** A weight that is 1 up to a margin of [mn], 0 from [mx] on, strictly decreasing between. *)
Definition ramp_down (mn mx : R) (w : R -> R) : Prop :=
  (forall m, 0 <= w m <= 1) /\ (forall m, m <= mn -> w m = 1) /\ (forall m, mx <= m -> w m = 0) /\
  (forall m m', mn <= m -> m < m' -> m' <= mx -> w m' < w m) /\ w ((mn + mx) / 2) = 1 / 2.

Lemma c_Y_value dm mn mx : mn < mx -> c_Y dm mn mx = Rmax 0 (Rmin 1 ((dm - mn) / (mx - mn))).
Proof.
  intros Hm. unfold c_Y. set (q := (dm - mn) / (mx - mn)).
  destruct (Rltb_spec q 0).
  - destruct (Rltb_spec 1 0); [lra|]. rewrite Rmin_right by lra. rewrite Rmax_left by lra. reflexivity.
  - destruct (Rltb_spec 1 q).
    + rewrite Rmin_left by lra. rewrite Rmax_right by lra. reflexivity.
    + rewrite Rmin_right by lra. rewrite Rmax_right by lra. reflexivity.
Qed.

Lemma c_weight_0 : c_weight 0 = 1.
Proof.
  unfold c_weight, ediv. destruct (Req_EM_T 0 0) as [_|]; [|lra]. destruct (Req_EM_T 1 0) as [|_]; [lra|].
  destruct (Rltb_spec 0 1) as [_|]; [|lra]. destruct (Req_EM_T (1 - 0) 0) as [|_]; [lra|]. cbn. lra.
Qed.
Lemma c_weight_1 : c_weight 1 = 0.
Proof.
  unfold c_weight, ediv. destruct (Req_EM_T 1 0) as [|_]; [lra|]. destruct (Req_EM_T (1 - 1) 0) as [_|]; [|lra].
  destruct (Req_EM_T (-1) 0) as [|_]; [lra|]. destruct (Rltb_spec 0 (-1)) as [|_]; [lra|]. cbn. lra.
Qed.
Lemma c_weight_mid y : 0 < y < 1 -> c_weight y = 1 / 2 * (1 + tanh (1 / y + -1 / (1 - y))).
Proof.
  intros H. unfold c_weight, ediv. destruct (Req_EM_T y 0) as [|_]; [lra|].
  destruct (Req_EM_T (1 - y) 0) as [|_]; [lra|]. reflexivity.
Qed.
Lemma c_weight_in y : 0 <= y <= 1 -> 0 <= c_weight y <= 1.
Proof.
  intros H. destruct (Req_dec y 0) as [->|]; [rewrite c_weight_0; lra|].
  destruct (Req_dec y 1) as [->|]; [rewrite c_weight_1; lra|]. rewrite c_weight_mid by lra.
  pose proof (tanh_bound (1 / y + -1 / (1 - y))). lra.
Qed.
Lemma c_weight_lt y y' : 0 <= y -> y < y' -> y' <= 1 -> c_weight y' < c_weight y.
Proof.
  intros H0 H H1.
  destruct (Req_dec y 0) as [->|Hy].
  { rewrite c_weight_0. destruct (Req_dec y' 1) as [->|]; [rewrite c_weight_1; lra|].
    rewrite c_weight_mid by lra. pose proof (tanh_bound (1 / y' + -1 / (1 - y'))). lra. }
  destruct (Req_dec y' 1) as [->|Hy'].
  { rewrite c_weight_1, c_weight_mid by lra. pose proof (tanh_bound (1 / y + -1 / (1 - y))). lra. }
  rewrite !c_weight_mid by lra.
  pose proof (sarg_lt 1 y y' Rlt_0_1 ltac:(lra) H ltac:(lra)) as A.
  assert (B : 1 / y' + -1 / (1 - y') < 1 / y + -1 / (1 - y)) by (unfold Rdiv in *; lra).
  apply tanh_lt in B. lra.
Qed.

Lemma ramp_down_weight mn mx : 0 <= mn < mx -> ramp_down mn mx (fun m => c_weight (c_Y (Rmax m 0) mn mx)).
Proof.
  intros Hm. pose proof (fun d => c_Y_value d mn mx (proj2 Hm)) as Y.
  assert (I : 0 < / (mx - mn)) by (apply Rinv_0_lt_compat; lra).
  assert (Lo : forall m, m <= mn -> c_Y (Rmax m 0) mn mx = 0).
  { intros m K. rewrite Y. assert (Rmax m 0 <= mn) by (apply Rmax_lub; lra).
    rewrite Rmax_left; [reflexivity|]. apply Rle_trans with ((Rmax m 0 - mn) / (mx - mn)); [apply Rmin_r|].
    unfold Rdiv. nra. }
  assert (Hi : forall m, mx <= m -> c_Y (Rmax m 0) mn mx = 1).
  { intros m K. rewrite Y. rewrite (Rmax_left m 0) by lra.
    assert (1 <= (m - mn) / (mx - mn)).
    { apply (Rmult_le_reg_r (mx - mn)); [lra|]. unfold Rdiv. rewrite Rmult_assoc, Rinv_l by lra. lra. }
    rewrite Rmin_left by lra. rewrite Rmax_right by lra. reflexivity. }
  assert (Mi : forall m, mn <= m <= mx -> c_Y (Rmax m 0) mn mx = (m - mn) / (mx - mn)).
  { intros m K. rewrite Y. rewrite (Rmax_left m 0) by lra.
    assert (0 <= (m - mn) / (mx - mn)) by (unfold Rdiv; nra).
    assert ((m - mn) / (mx - mn) <= 1).
    { apply (Rmult_le_reg_r (mx - mn)); [lra|]. unfold Rdiv. rewrite Rmult_assoc, Rinv_l by lra. lra. }
    rewrite Rmin_right by lra. rewrite Rmax_right by lra. reflexivity. }
  split; [|split; [|split; [|split]]].
  - intros m. apply c_weight_in. rewrite Y. split; [apply Rmax_l|]. apply Rmax_lub; [lra|apply Rmin_l].
  - intros m K. rewrite Lo by exact K. exact c_weight_0.
  - intros m K. rewrite Hi by exact K. exact c_weight_1.
  - intros m m' A B C. rewrite !Mi by lra. apply c_weight_lt.
    + unfold Rdiv. nra.
    + unfold Rdiv. nra.
    + apply (Rmult_le_reg_r (mx - mn)); [lra|]. unfold Rdiv. rewrite Rmult_assoc, Rinv_l by lra. lra.
  - rewrite Mi by lra. replace (((mn + mx) / 2 - mn) / (mx - mn)) with (1 / 2) by (field; lra).
    rewrite c_weight_mid by lra. replace (1 / (1 / 2) + -1 / (1 - 1 / 2)) with 0 by field.
    rewrite tanh_exp, Rmult_0_r, exp_0. lra.
Qed.

Lemma c_dm_margin x lo hi : c_dm x lo hi = Rmax (margin x lo hi) 0.
Proof.
  unfold c_dm, margin. destruct (Rle_dec (x - lo) (hi - x)).
  - rewrite (Rmin_left (x - lo)) by lra. apply Rmin_left. apply Rmax_lub; [|apply Rmax_r].
    apply Rle_trans with (hi - x); [lra|apply Rmax_l].
  - rewrite (Rmin_right (x - lo)) by lra. apply Rmin_right. apply Rmax_lub; [|apply Rmax_r].
    apply Rle_trans with (x - lo); [lra|apply Rmax_l].
Qed.

(** In mode 2 and the reference frame, for every rigid pair of poses: with (x, y, z) the position of
    the hand seen from the reference, the weights of the three translations are functions of the
    distance to the closest border, 1 up to 19 mm, 0 from 25 mm on, decreasing between; the weight of
    the rotation about z likewise up to 119 mm, with the distance along z; the other two rotations
    have weight 0. *)
Theorem clamp_smooth_weights : exists w wyaw,
  ramp_down (19 / 1000) (25 / 1000) w /\ ramp_down (19 / 1000) (119 / 1000) wyaw /\
  forall posref pos t, is_rigid posref -> (0 < t)%Z ->
  let p := mapp (mT (lin posref)) (vsub (trn pos) (trn posref)) in
  let c := c_update (c_start 2 false) posref pos t in
  c_alpha c =
    T6 (M3 (w (margin (vx p) (15 / 100) (5 / 10))) 0 0
           0 (w (margin (vy p) (- 4 / 10) (- 25 / 100))) 0
           0 0 (w (margin (vz p) (15 / 100) (55 / 100)))) mzero
       mzero (M3 0 0 0 0 0 0 0 0 (wyaw (margin (vz p) (15 / 100) (55 / 100)))) /\
  m00 (b00 (c_alphabar c)) = 1 - w (margin (vx p) (15 / 100) (5 / 10)).
Proof.
  exists (fun m => c_weight (c_Y (Rmax m 0) c_dm_min c_dm_max)),
         (fun m => c_weight (c_Y (Rmax m 0) c_dm_min_yaw c_dm_max_yaw)).
  split; [apply ramp_down_weight; unfold c_dm_min, c_dm_max; lra|]. split; [apply ramp_down_weight; unfold c_dm_min_yaw, c_dm_max_yaw; lra|].
  intros posref pos t Hr Ht. cbv zeta. unfold c_update, c_start. cbn [c_time c_mode c_point].
  destruct (Z.leb_spec t 0); [lia|]. cbn [c_alpha c_alphabar fst snd].
  assert (E : trn (hmul (hinv posref) pos) = mapp (mT (lin posref)) (vsub (trn pos) (trn posref))).
  { unfold hmul, hinv. cbn [lin trn]. rewrite (rot_inv _ Hr).
    destruct posref as [[] []], pos as [? []]. unfold mapp, mT, vsub, vadd, vopp. cbn. f_equal; ring. }
  rewrite E. set (p := mapp (mT (lin posref)) (vsub (trn pos) (trn posref))).
  unfold c_diag, c_yaw. cbn [Z.eqb Pos.eqb fst snd]. rewrite !c_dm_margin.
  split; [reflexivity|]. cbn [b00 m00]. reflexivity.
Qed.

Example clamp_smooth_weights_example : exists posref pos, is_rigid posref /\
  margin (vx (mapp (mT (lin posref)) (vsub (trn pos) (trn posref)))) (15 / 100) (5 / 10) = 22 / 1000.
Proof.
  exists (H mid (V3 (1 / 10) 0 0)), (H mid (V3 (272 / 1000) 0 0)). split; [exact rot_id|].
  cbn. unfold margin. rewrite Rmin_left; lra.
Qed.

Example clamp_example : exists h, Forall (fun e => is_rigid (fst (fst e)) /\ is_rigid (snd (fst e))) h /\
  (exists e, In e h /\ (0 < snd e)%Z) /\ length h = 2%nat.
Proof.
  exists [(hid, hid, 0%Z); (hid, H (axisMat AXIS_X 1) (V3 1 2 3), 3%Z)]. split; [|split].
  - assert (A : is_rigid hid) by exact rot_id.
    assert (B : is_rigid (H (axisMat AXIS_X 1) (V3 1 2 3))) by exact (axisMat_rot AXIS_X 1).
    constructor; [split; exact A|]. constructor; [split; [exact A|exact B]|]. constructor.
  - eexists. split; [right; left; reflexivity|cbn; lia].
  - reflexivity.
Qed.

Print Assumptions admittance_bounded_partial.
Print Assumptions admittance_negative_saturation_refuted.
Print Assumptions admittance_commands.
Print Assumptions admittance_decay.
Print Assumptions admittance_output_frame.
Print Assumptions admittance_power.
Print Assumptions admittance_output_bound_refuted.
Print Assumptions admittance_sensor_pose_refuted.
Print Assumptions clamp_projectors_partial.
Print Assumptions clamp_ignores_position_refuted.
Print Assumptions clamp_time_zero_refuted.
Print Assumptions clamp_smooth_refuted.
Print Assumptions clamp_smooth_weights.
Print Assumptions clamp_reference.
Print Assumptions clamp_reference_angle.
Print Assumptions admittance_settles.
