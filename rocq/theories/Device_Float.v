(** Theorems about the bound checks of the device in IEEE arithmetic (C32, C34, C74). *)
From Coq Require Import String Ascii List Arith Lia ZArith Bool SpecFloat.
From Verif Require Import Base Float_Facts Device_Model Device_Proofs Device_Props.
Import ListNotations.
Local Open Scope nat_scope.
Local Open Scope list_scope.

Definition inside (lo up x : float) : Prop := fleb lo x = true /\ fleb x up = true.

(** ** C34 *)
Theorem saturate_spec (val lower upper : float) :
  fleb lower upper = true ->
  let '(r, changed) := saturateBounds float fltb val lower upper in
  (val <> S754_nan -> inside lower upper r) /\
  (inside lower upper val -> r = val /\ changed = false) /\
  (fltb val lower = true -> r = lower /\ changed = true) /\
  (fltb upper val = true -> r = upper /\ changed = true) /\
  (changed = false -> r = val) /\
  (changed = true -> ~ inside lower upper val).
Proof.
  intros Hb. destruct (fleb_not_nan _ _ Hb) as [Nl Nu]. unfold saturateBounds, inside.
  destruct (fnan val) eqn:Nv.
  - destruct val; try discriminate. rewrite (fleb_nan_r lower).
    replace (fltb S754_nan lower) with false by reflexivity.
    replace (fltb upper S754_nan) with false by (unfold SFltb; rewrite fcompare_nan_r; reflexivity).
    repeat split; intros; try tauto; try discriminate; destruct H; discriminate.
  - assert (L : fltb val lower = negb (fleb lower val)) by (apply fltb_fleb; auto).
    assert (U : fltb upper val = negb (fleb val upper)) by (apply fltb_fleb; auto).
    assert (X : fltb val lower = true -> fltb upper val = true -> False).
    { intros A B. rewrite A in L. apply fltb_fleb_weak in B.
      rewrite (fleb_trans _ _ _ Hb B) in L. discriminate. }
    destruct (fltb val lower) eqn:E1.
    + split; [|split; [|split; [|split; [|split]]]]; intros; auto; try discriminate.
      * split; auto. apply fleb_refl. exact Nl.
      * destruct H as [H _]. rewrite H in L. discriminate.
      * destruct (X eq_refl H).
      * intros [H1 _]. rewrite H1 in L. discriminate.
    + destruct (fltb upper val) eqn:E2.
      * split; [|split; [|split; [|split; [|split]]]]; intros; auto; try discriminate.
        -- split; auto. apply fleb_refl. exact Nu.
        -- destruct H as [_ H]. rewrite H in U. discriminate.
        -- intros [_ H1]. rewrite H1 in U. discriminate.
      * split; [|split; [|split; [|split; [|split]]]]; intros; auto; try discriminate.
        split; [destruct (fleb lower val)|destruct (fleb val upper)]; auto; discriminate.
Qed.

(** A NaN passes unreported (finding). *)
Theorem saturate_nan (lower upper : float) :
  saturateBounds float fltb S754_nan lower upper = (S754_nan, false).
Proof.
  unfold saturateBounds. replace (fltb S754_nan lower) with false by reflexivity.
  replace (fltb upper S754_nan) with false by (unfold SFltb; rewrite fcompare_nan_r; reflexivity).
  reflexivity.
Qed.

(** ** C32 *)
Section Bounded.
Variable ffint : list float -> list float -> float -> float * float * float * float * float * float.
Notation incr := (increment float fhalf fadd fmul fltb fnan ffint).

Definition fsteps (us : list (list float * float)) (d : device float) : outcome (device float) :=
  ofold (fun d s => incr d (fst s) (snd s)) us d.

(** Finite bounds, lower at most upper, one pair per component. *)
Definition proper_bounds (n : nat) (lo up : list float) : Prop :=
  length lo = n /\ length up = n /\
  forall j, j < n -> ffinite (nth j lo f0) = true /\ ffinite (nth j up f0) = true /\
                     fleb (nth j lo f0) (nth j up f0) = true.

(** A period that is neither null nor so small that half of it is. *)
Definition proper_period (dt : float) : Prop :=
  ffinite dt = true /\ fnonzero dt = true /\
  ffinite (fmul fhalf dt) = true /\ fnonzero (fmul fhalf dt) = true.

(** Checks on, bounds set, in a mode with integration, velocities finite; [full] allows controls
    as long as the state, for which the first six components come from the free flyer
    integration. *)
Definition guarded (n : nat) (full : bool) (d : device float) : Prop :=
  sanity d = true /\ ctype d <> NoInteg /\ length (state d) = n /\ length (velocity d) = n /\
  (full = true -> 6 <= n) /\ proper_bounds n (loP d) (upP d) /\ proper_bounds n (loV d) (upV d) /\
  (forall j, j < n -> ffinite (nth j (velocity d) f0) = true) /\
  (forall j, j < n -> inside (nth j (loP d) f0) (nth j (upP d) f0) (nth j (state d) f0) \/
                      full = true /\ j < 6 /\ nth j (state d) f0 = S754_nan).

Lemma saturate_inside x lo up : fnan x = false -> fleb lo up = true ->
  inside lo up (fst (saturateBounds float fltb x lo up)).
Proof.
  intros Hx Hb. pose proof (saturate_spec x lo up Hb) as H.
  destruct (saturateBounds float fltb x lo up) as [r c]. destruct H as (H & _). apply H.
  intros E; subst; discriminate.
Qed.
Lemma saturate_inside_or_nan x lo up : fleb lo up = true ->
  inside lo up (fst (saturateBounds float fltb x lo up)) \/
  fst (saturateBounds float fltb x lo up) = S754_nan.
Proof.
  intros Hb. destruct (fnan x) eqn:E; [right|left; apply saturate_inside; auto].
  destruct x; try discriminate. rewrite saturate_nan. reflexivity.
Qed.

Lemma no_nan_nth u i : existsb fnan u = false -> i < length u -> fnan (nth i u f0) = false.
Proof.
  revert i; induction u as [|a u IH]; intros [|i] H Hi; simpl in *; try lia;
    apply orb_false_iff in H; destruct H; auto. apply IH; auto. lia.
Qed.

Lemma guarded_step n full d u dt :
  guarded n full d -> proper_period dt ->
  (if full then length u <= n else length u < n) ->
  exists d', incr d u dt = Ok d' /\ guarded n full d'.
Proof.
  intros (Hs & Hm & Hn & Hv & H6 & (LP1 & LP2 & BP) & (LV1 & LV2 & BV) & FV & IN) (D1 & D2 & D3 & D4) Hu.
  assert (Hu' : length u <= n) by (destruct full; lia).
  assert (Hu6 : length u = n -> full = true /\ 6 <= n).
  { intros E. destruct full; [auto|lia]. }
  unfold increment, integrate. rewrite Hs. cbn [andb].
  destruct (existsb fnan u) eqn:NU.
  { cbn [bind]. eexists. split; [reflexivity|]. unfold guarded; cbn.
    repeat split; auto; try (apply BP; assumption); apply BV; assumption. }
  (* velocity stored, velocity applied *)
  assert (STEP : forall vc v1, length vc = length u -> length v1 = n ->
     (forall i, i < length vc -> fnan (nth i vc f0) = false) ->
     (forall j, j < n -> fnan (nth j v1 f0) = false) ->
     exists v2 s1 s2, check_if float fltb true v1 (loV d) (upV d) = Ok v2 /\
       integrate_position float fadd fmul ffint (state d) vc dt = Ok s1 /\
       check_if float fltb true s1 (loP d) (upP d) = Ok s2 /\
       length v2 = n /\ length s2 = n /\
       (forall j, j < n -> ffinite (nth j v2 f0) = true) /\
       (forall j, j < n -> inside (nth j (loP d) f0) (nth j (upP d) f0) (nth j s2 f0) \/
                      full = true /\ j < 6 /\ nth j s2 f0 = S754_nan)).
  { intros vc v1 Lc L1 Nc N1.
    destruct (check_if_ok fltb true v1 (loV d) (upV d)) as (v2 & E2 & L2 & V2); [intros; lia|].
    destruct (position_ok fadd fmul ffint (state d) vc dt) as (s1 & E3 & L3 & S1 & S2 & _); [lia|lia|].
    destruct (check_if_ok fltb true s1 (loP d) (upP d)) as (s2 & E4 & L4 & S3); [intros; lia|].
    exists v2, s1, s2. repeat split; auto; try lia.
    - intros j Hj. rewrite V2 by lia. destruct (BV j Hj) as (F1 & F2 & F3).
      destruct (saturate_inside (nth j v1 f0) _ _ (N1 j Hj) F3) as [I1 I2].
      eapply fleb_finite; eauto.
    - intros j Hj. rewrite S3 by lia. destruct (BP j Hj) as (F1 & F2 & F3).
      destruct (Nat.lt_ge_cases j (n - length vc)) as [C|C].
      + rewrite S1 by lia. destruct (IN j Hj) as [I|(I1 & I2 & I3)].
        * left. apply saturate_inside; auto. destruct I as [I _]. apply fleb_not_nan in I. tauto.
        * right. rewrite I3, saturate_nan. auto.
      + destruct (Nat.eq_dec (length vc) n) as [F|F]; [destruct (Nat.lt_ge_cases j 6) as [J|J]|].
        * destruct (Hu6 ltac:(lia)) as [Ff _].
          destruct (saturate_inside_or_nan (nth j s1 f0) _ _ F3); auto.
        * left. apply saturate_inside; auto. rewrite S2 by lia. rewrite Hn.
          destruct (IN j Hj) as [[I1 I2]|(_ & I2 & _)]; [|lia].
          apply fadd_not_nan; [eapply fleb_finite; eauto|]. apply fmul_not_nan; auto. apply Nc. lia.
        * destruct (IN j Hj) as [[I1 I2]|(Ff & I2 & I3)].
          -- left. apply saturate_inside; auto. rewrite S2 by lia. rewrite Hn.
             apply fadd_not_nan; [eapply fleb_finite; eauto|]. apply fmul_not_nan; auto. apply Nc. lia.
          -- destruct (saturate_inside_or_nan (nth j s1 f0) _ _ F3); auto. }
  assert (NT : forall j, j < n -> fnan (nth j (velocity d) f0) = false).
  { intros j Hj. specialize (FV j Hj). destruct (nth j (velocity d) f0); auto. }
  destruct (ctype d) eqn:Em; [congruence| |].
  - cbn [bind].
    destruct (STEP u (velocity d) eq_refl Hv (fun i => no_nan_nth u i NU) NT)
      as (v2 & s1 & s2 & E1 & E2 & E3 & L1 & L2 & F & I).
    rewrite E1. cbn [bind]. rewrite E2. cbn [bind]. rewrite E3. cbn [bind].
    eexists. split; [reflexivity|]. unfold guarded; cbn.
    repeat split; auto; try discriminate; try (apply BP; assumption); apply BV; assumption.
  - destruct (second_order_ok fadd fmul (velocity d) u dt ltac:(lia)) as (t & v & E1 & E2 & M1 & M2 & V1 & V2 & V3).
    rewrite E1. cbn [bind]. rewrite E2. cbn [bind].
    set (vc := vadd float fadd t (vscale float fmul u (fmul fhalf dt))).
    assert (Lc : length vc = length u) by (unfold vc; rewrite vadd_length, vscale_length; lia).
    destruct (STEP vc v Lc ltac:(lia)) as (v2 & s1 & s2 & X1 & X2 & X3 & L1 & L2 & F & I).
    { intros i Hi. unfold vc. rewrite nth_vadd by (rewrite ?vscale_length; lia).
      rewrite nth_vscale by lia. rewrite V2 by lia.
      apply fadd_not_nan; [apply FV; lia|]. apply fmul_not_nan; auto. apply no_nan_nth; auto. lia. }
    { intros j Hj. destruct (Nat.lt_ge_cases j (n - length u)) as [C|C].
      - rewrite V1 by lia. apply NT. exact Hj.
      - replace j with (length (velocity d) - length u + (j - (n - length u))) by lia.
        rewrite V3 by lia. apply fadd_not_nan; [apply FV; lia|]. apply fmul_not_nan; auto.
        apply no_nan_nth; auto. lia. }
    rewrite X1. cbn [bind]. rewrite X2. cbn [bind]. rewrite X3. cbn [bind].
    eexists. split; [reflexivity|]. unfold guarded; cbn.
    repeat split; auto; try discriminate; try (apply BP; assumption); apply BV; assumption.
Qed.

Lemma guarded_steps n full us : forall d,
  guarded n full d ->
  (forall s, In s us -> proper_period (snd s) /\ (if full then length (fst s) <= n else length (fst s) < n)) ->
  exists d', fsteps us d = Ok d' /\ guarded n full d'.
Proof.
  induction us as [|[u dt] us IH]; intros d G H.
  - exists d. split; [reflexivity|exact G].
  - destruct (H (u, dt) (or_introl eq_refl)) as [H1 H2].
    destruct (guarded_step n full d u dt G H1 H2) as (d1 & E & G1).
    destruct (IH d1 G1) as (d' & E' & G'); [intros; apply H; right; auto|].
    exists d'. split; [|exact G']. unfold fsteps. cbn [ofold fst snd]. rewrite E. exact E'.
Qed.

(** Whatever the controls, infinite or NaN included, and whatever happened
    before, the position of every joint is within its bounds after every
    step. Missing: the mode without integration, which does not check the
    positions, and a null period with an infinite control; false of the
    code in both cases. *)
Theorem device_positions_bounded_partial (n : nat) (us : list (list float * float)) (d : device float) :
  guarded n false d ->
  (forall s, In s us -> proper_period (snd s) /\ length (fst s) < n) ->
  exists d', fsteps us d = Ok d' /\
    forall j, j < n -> inside (nth j (loP d') f0) (nth j (upP d') f0) (nth j (state d') f0).
Proof.
  intros G H. destruct (guarded_steps n false us d G H) as (d' & E & G'). exists d'. split; [exact E|].
  intros j Hj. destruct G' as (_ & _ & _ & _ & _ & _ & _ & _ & I).
  destruct (I j Hj) as [?|(? & _)]; [assumption|discriminate].
Qed.

(** With controls that also drive the free flyer, the joints after it are within their bounds;
    the free flyer components are too, unless the external integration gave NaN. *)
Theorem device_positions_bounded_freeflyer (n : nat) (us : list (list float * float)) (d : device float) :
  guarded n true d ->
  (forall s, In s us -> proper_period (snd s) /\ length (fst s) <= n) ->
  exists d', fsteps us d = Ok d' /\
    (forall j, 6 <= j < n -> inside (nth j (loP d') f0) (nth j (upP d') f0) (nth j (state d') f0)) /\
    (forall j, j < 6 -> inside (nth j (loP d') f0) (nth j (upP d') f0) (nth j (state d') f0) \/
                        nth j (state d') f0 = S754_nan).
Proof.
  intros G H. destruct (guarded_steps n true us d G H) as (d' & E & G'). exists d'. split; [exact E|].
  destruct G' as (_ & _ & _ & _ & H6 & _ & _ & _ & I). specialize (H6 eq_refl). split; intros j Hj.
  - destruct (I j ltac:(lia)) as [?|(_ & ? & _)]; [assumption|lia].
  - destruct (I j ltac:(lia)) as [?|(_ & _ & ?)]; auto.
Qed.

(** The bounds themselves are not changed by steps. *)
Theorem device_steps_keep_bounds (us : list (list float * float)) (d d' : device float) :
  fsteps us d = Ok d' ->
  loP d' = loP d /\ upP d' = upP d /\ loV d' = loV d /\ upV d' = upV d /\ sanity d' = sanity d /\ ctype d' = ctype d.
Proof.
  revert d. induction us as [|[u dt] us IH]; intros d H.
  - inversion H. repeat split.
  - unfold fsteps in H. cbn [ofold fst snd] in H.
    destruct (incr d u dt) as [d1| |] eqn:E; try discriminate. cbn [bind] in H.
    destruct (IH d1 H) as (-> & -> & -> & -> & -> & ->). clear H IH.
    unfold increment in E. destruct (integrate _ _ _ _ _ _ _ d u dt) as [d2| |] eqn:E1; try discriminate.
    cbn [bind] in E. inversion E; subst d1. cbn. clear E. unfold integrate in E1.
    destruct (sanity d && existsb fnan u); [inversion E1; repeat split|].
    destruct (ctype d) eqn:Em.
    + destruct (set_tail float (state d) u); try discriminate. cbn in E1. inversion E1. repeat split; auto.
    + cbn [bind] in E1. destruct (check_if _ _ _ (velocity d) _ _); try discriminate. cbn [bind] in E1.
      destruct (integrate_position _ _ _ _ _ _ _); try discriminate. cbn [bind] in E1.
      destruct (check_if _ _ _ _ _ _); try discriminate. cbn in E1. inversion E1. repeat split; auto.
    + destruct (tail _ _ _); try discriminate. cbn [bind] in E1.
      destruct (set_tail _ _ _); try discriminate. cbn [bind] in E1.
      destruct (check_if _ _ _ _ (loV d) _); try discriminate. cbn [bind] in E1.
      destruct (integrate_position _ _ _ _ _ _ _); try discriminate. cbn [bind] in E1.
      destruct (check_if _ _ _ _ _ _); try discriminate. cbn in E1. inversion E1. repeat split; auto.
Qed.

(** A control with a NaN is ignored when the checks are on. *)
Theorem device_nan_control_ignored (d : device float) (u : list float) (dt : float) :
  sanity d = true -> In S754_nan u ->
  exists d', incr d u dt = Ok d' /\ state d' = state d /\ velocity d' = velocity d.
Proof.
  intros Hs Hu. unfold increment, integrate. rewrite Hs.
  assert (E : existsb fnan u = true) by (apply existsb_exists; exists S754_nan; auto).
  rewrite E. cbn [andb bind]. eexists. split; [reflexivity|]. split; reflexivity.
Qed.

(** Findings: the direct mode does not check the position; *)
Theorem device_direct_mode_unbounded_refuted :
  let b := repeat f1 7 in
  let d := mkDevice (repeat f0 7) (repeat f0 7) [] true NoInteg b b b (repeat f0 7) (repeat f0 7) (repeat f0 7)
             (repeat f0 7) (repeat f0 7) in
  exists d', fsteps [([f2], f1)] d = Ok d' /\ nth 6 (state d') f0 = f2 /\
    ~ inside (nth 6 (loP d') f0) (nth 6 (upP d') f0) (nth 6 (state d') f0).
Proof.
  eexists. split; [reflexivity|]. split; [reflexivity|]. intros [_ H]. discriminate.
Qed.
(** and a null period with an infinite control gives NaN positions. *)
Theorem device_null_period_nan_refuted :
  let b := repeat f1 7 in
  let d := mkDevice (repeat f0 7) (repeat f0 7) [] true OneInteg b b b (repeat f0 7) (repeat f0 7) (repeat f0 7)
             (repeat f0 7) (repeat f0 7) in
  exists d', fsteps [([finf], f0)] d = Ok d' /\ nth 6 (state d') f0 = S754_nan.
Proof. eexists. split; reflexivity. Qed.

(** ** C74: velocity bounds *)

(** Finding: with checks on and velocity bounds of 1, a control of 2 moves the joint by 2 in one
    unit of time, and the velocity signal shows 2: the check looks at the stored velocity, not at
    the one applied. *)
Theorem device_velocity_bound_ineffective_refuted :
  let b := repeat f2 7 in
  let d := mkDevice (repeat f0 7) (repeat f0 7) [] true OneInteg b (repeat f1 7) b (repeat f0 7) (repeat f0 7) (repeat f0 7)
             (repeat f0 7) (repeat f0 7) in
  exists d', fsteps [([f2], f1)] d = Ok d' /\ nth 6 (state d') f0 = f2 /\ velOut d' = [f2] /\
    ~ inside (nth 6 (loV d) f0) (nth 6 (upV d) f0) (nth 0 (velOut d') f0).
Proof. eexists. split; [reflexivity|]. repeat split; auto. intros [_ H]. discriminate. Qed.

(** What does hold: in second order mode the velocity that is stored and
    shown is within the velocity bounds after every step that is not
    ignored. Missing: the velocity that is applied; false of the code. *)
Theorem device_velocity_bounded_partial (n : nat) (full : bool) (us : list (list float * float)) (u : list float) (dt : float) (d : device float) :
  guarded n full d -> ctype d = TwoInteg ->
  (forall s, In s (us ++ [(u, dt)]) ->
     proper_period (snd s) /\ (if full then length (fst s) <= n else length (fst s) < n)) ->
  existsb fnan u = false ->
  exists d', fsteps (us ++ [(u, dt)]) d = Ok d' /\
    forall j, j < n -> inside (nth j (loV d) f0) (nth j (upV d) f0) (nth j (velOut d') f0).
Proof.
  intros G Hm H NU.
  destruct (guarded_steps n full us d G) as (d1 & E1 & G1); [intros; apply H; apply in_or_app; auto|].
  destruct (device_steps_keep_bounds us d d1 E1) as (_ & _ & K3 & K4 & _ & K6). rewrite Hm in K6.
  destruct (H (u, dt) ltac:(apply in_or_app; right; left; auto)) as [P L]. cbn [fst snd] in P, L.
  destruct (guarded_step n full d1 u dt G1 P L) as (d2 & E2 & G2).
  exists d2. split.
  { unfold fsteps in *. rewrite ofold_app, E1. cbn [bind ofold fst snd]. rewrite E2. reflexivity. }
  rewrite <- K3, <- K4. intros j Hj.
  destruct G1 as (Hs & _ & Hn & Hv & _ & _ & (LV1 & LV2 & BV) & FV & _).
  assert (Hu : length u <= n) by (destruct full; lia).
  unfold increment in E2. destruct (integrate _ _ _ _ _ _ _ d1 u dt) as [d3| |] eqn:E3; try discriminate.
  cbn [bind] in E2. inversion E2 as [E4]. cbn. unfold integrate in E3. rewrite Hs, NU, K6 in E3. cbn [andb] in E3.
  destruct (second_order_ok fadd fmul (velocity d1) u dt ltac:(lia)) as (t & v & X1 & X2 & M1 & M2 & V1 & V2 & V3).
  rewrite X1 in E3. cbn [bind] in E3. rewrite X2 in E3. cbn [bind] in E3.
  destruct (check_if_ok fltb true v (loV d1) (upV d1)) as (v2 & X3 & L2 & W); [intros; lia|].
  rewrite X3 in E3. cbn [bind] in E3.
  destruct (integrate_position _ _ _ _ _ _ _); try discriminate. cbn [bind] in E3.
  destruct (check_if _ _ _ _ _ _); try discriminate. cbn [bind] in E3. inversion E3. cbn.
  rewrite W by lia. apply saturate_inside; [|apply BV; exact Hj].
  destruct P as (D1 & D2 & _ & _).
  destruct (Nat.lt_ge_cases j (n - length u)) as [C|C].
  - rewrite V1 by lia. specialize (FV j Hj). destruct (nth j (velocity d1) f0); auto.
  - replace j with (length (velocity d1) - length u + (j - (n - length u))) by lia.
    rewrite V3 by lia. apply fadd_not_nan; [apply FV; lia|]. apply fmul_not_nan; auto.
    apply no_nan_nth; auto. lia.
Qed.

(** ** Examples *)
Example guarded_example :
  let d := mkDevice (repeat f0 7) (repeat f0 7) [] true OneInteg (repeat f1 7) (repeat f1 7) (repeat f1 7)
             (repeat f0 7) (repeat f0 7) (repeat f0 7) (repeat f0 7) (repeat f0 7) in
  guarded 7 false d /\ proper_period fhalf /\
  (exists d', fsteps [([f1], fhalf); ([finf], fhalf); ([S754_nan], fhalf); ([fninf], f1)] d = Ok d' /\
     nth 6 (state d') f1 = f0).
Proof.
  split; [|split].
  - unfold guarded, proper_bounds. cbn [sanity ctype state velocity loP upP loV upV]. repeat split; try discriminate;
      do 7 (destruct j as [|j]; [cbn; auto; left; split; reflexivity|]); lia.
  - repeat split.
  - eexists. split; [vm_compute; reflexivity|vm_compute; reflexivity].
Qed.
End Bounded.

Print Assumptions saturate_spec.
Print Assumptions device_positions_bounded_partial.
Print Assumptions device_positions_bounded_freeflyer.
Print Assumptions device_velocity_bounded_partial.
