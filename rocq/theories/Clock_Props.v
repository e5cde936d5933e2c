(** TimeStamp and Timer (C112, C113).

    [micro t] is the reading [t] of the clock in microseconds; a reading is valid until the year
    2242 (2^33 seconds). *)
From Coq Require Import ZArith Reals List Bool Lia Lra Psatz.
From Flocq Require Import Core.
From Verif Require Import Base Clock_Model.
Import ListNotations.
Local Open Scope R_scope.

Definition valid (t : timeval) : Prop :=
  (0 <= tv_sec t < 2 ^ 33)%Z /\ (0 <= tv_usec t < 1000000)%Z.
Definition micro (t : timeval) : Z := (tv_sec t * 1000000 + tv_usec t)%Z.

(** ** Rounding *)
Local Notation fexp := (FLT_exp (-1074) 53).
Local Instance fexp_valid : Valid_exp fexp. Proof. apply FLT_exp_valid; unfold Prec_gt_0; lia. Qed.

Lemma fl_int (z : Z) : (Z.abs z < 2 ^ 53)%Z -> fl (IZR z) = IZR z.
Proof.
  intros H. unfold fl. apply round_generic; [apply valid_rnd_N|].
  apply generic_format_FLT. exists (Float radix2 z 0).
  - unfold F2R. simpl. ring.
  - simpl. exact H.
  - simpl. lia.
Qed.

Lemma fl_err (x : R) (e : Z) : (-1021 <= e)%Z -> Rabs x < bpow radix2 e ->
  Rabs (fl x - x) <= bpow radix2 (e - 54).
Proof.
  intros He Hx. destruct (Req_dec x 0) as [->|Hn].
  { unfold fl. rewrite round_0 by apply valid_rnd_N. rewrite Rminus_0_r, Rabs_R0. apply bpow_ge_0. }
  unfold fl. eapply Rle_trans; [apply error_le_half_ulp; apply fexp_valid|].
  rewrite ulp_neq_0 by exact Hn. unfold cexp.
  assert (Hm : (mag radix2 x <= e)%Z) by (apply mag_le_bpow; auto).
  replace (e - 54)%Z with (-1 + (e - 53))%Z by ring. rewrite bpow_plus.
  replace (bpow radix2 (-1)) with (/ 2) by (simpl; lra).
  apply Rmult_le_compat_l; [lra|]. apply bpow_le. unfold FLT_exp. lia.
Qed.

Lemma bp (n : Z) (r : R) : r = bpow radix2 n -> bpow radix2 n = r.
Proof. auto. Qed.
Lemma b43 : bpow radix2 43 = 8796093022208. Proof. simpl. lra. Qed.
Lemma b10 : bpow radix2 10 = 1024. Proof. simpl. lra. Qed.
Lemma bm11 : bpow radix2 (43 - 54) = / 2048. Proof. simpl. lra. Qed.
Lemma bm44 : bpow radix2 (10 - 54) = / 17592186044416. Proof. simpl. lra. Qed.

Lemma zlt (a b : Z) : (a < b)%Z -> IZR a + 1 <= IZR b.
Proof. intros H. rewrite <- plus_IZR. apply IZR_le. lia. Qed.

(** A whole number of milliseconds and a part of a second in microseconds. *)
Lemma fl_ms (m u : Z) : (-(2 ^ 43 - 2000) < m < 2 ^ 43 - 2000)%Z -> (-1000000 < u < 1000000)%Z ->
  Rabs (fl (IZR m + fl (IZR u / 1000)) - (IZR m + IZR u / 1000)) <= / 2048 + / 17592186044416.
Proof.
  intros Hm Hu.
  assert (Hm1 : IZR (-(2 ^ 43 - 2000)) < IZR m) by (apply IZR_lt; lia).
  assert (Hm2 : IZR m < IZR (2 ^ 43 - 2000)) by (apply IZR_lt; lia).
  assert (Hu1 : IZR (-1000000) < IZR u) by (apply IZR_lt; lia).
  assert (Hu2 : IZR u < IZR 1000000) by (apply IZR_lt; lia).
  simpl in Hm1, Hm2, Hu1, Hu2.
  assert (E1 : Rabs (fl (IZR u / 1000) - IZR u / 1000) <= bpow radix2 (10 - 54)).
  { apply fl_err; [lia|]. rewrite b10. apply Rabs_def1; lra. }
  rewrite bm44 in E1. set (y := fl (IZR u / 1000)) in *.
  apply Rabs_le_inv in E1.
  assert (E2 : Rabs (fl (IZR m + y) - (IZR m + y)) <= bpow radix2 (43 - 54)).
  { apply fl_err; [lia|]. rewrite b43. apply Rabs_def1; lra. }
  rewrite bm11 in E2. apply Rabs_le_inv in E2. apply Rabs_le. lra.
Qed.

(** ** C112: TimeStamp *)

(** What timeDouble gives for a reading of the clock. *)
Definition stamp_of (s : stamp) (now : timeval) (x : R) : Prop :=
  forall o t, exists s', read s o TimeDouble t now = Ok (s', o, Dbl x).

Definition ms_stamp (now : timeval) : R :=
  fl (IZR (tv_sec now * 1000) + fl (IZR (tv_usec now) / 1000)).

Lemma stamp_value s now : offsetSet s = false -> valid now ->
  getTimeStampDouble s (snd (getTimeStamp s now)) = Ok (ms_stamp now).
Proof.
  intros Ho [Hs Hu]. unfold getTimeStampDouble, getTimeStamp, dbl, ms_stamp. cbn [snd]. rewrite Ho.
  rewrite !fl_int by lia. rewrite <- mult_IZR, fl_int by lia. reflexivity.
Qed.

Lemma ms_stamp_err now : valid now ->
  Rabs (ms_stamp now - IZR (micro now) / 1000) <= / 2048 + / 17592186044416.
Proof.
  intros [Hs Hu]. unfold ms_stamp, micro.
  replace (IZR (tv_sec now * 1000000 + tv_usec now) / 1000)
    with (IZR (tv_sec now * 1000) + IZR (tv_usec now) / 1000)
    by (rewrite plus_IZR, !mult_IZR; field).
  apply fl_ms; lia.
Qed.

(** The stamp in milliseconds is within a microsecond of the clock, and stamps are ordered as the
    readings of the clock are: no two readings share a stamp. *)
Theorem timestamp_milliseconds (now : timeval) (start : timeval) :
  valid now ->
  exists x, stamp_of (stamp_init start) now x /\ Rabs (x - IZR (micro now) / 1000) < 1 / 1000.
Proof.
  intros Hv. exists (ms_stamp now). split.
  - intros o t. exists (Stamp 0 false now). unfold read.
    pose proof (stamp_value (stamp_init start) now eq_refl Hv) as E.
    unfold getTimeStamp in *. cbn [snd] in E. unfold getTimeStampDouble in *. cbn [offsetSet stamp_init] in *.
    rewrite E. reflexivity.
  - eapply Rle_lt_trans; [apply ms_stamp_err; exact Hv|]. lra.
Qed.

Theorem timestamp_increasing (start a b : timeval) (x y : R) :
  valid a -> valid b ->
  stamp_of (stamp_init start) a x -> stamp_of (stamp_init start) b y ->
  (x < y <-> (micro a < micro b)%Z).
Proof.
  intros Ha Hb Hx Hy.
  assert (Ex : x = ms_stamp a).
  { destruct (Hx outputs_init 0%Z) as [s' E]. unfold read in E.
    pose proof (stamp_value (stamp_init start) a eq_refl Ha) as E'.
    unfold getTimeStamp, getTimeStampDouble in *. cbn [snd offsetSet stamp_init bind] in *.
    injection E as _ E. injection E' as E'. congruence. }
  assert (Ey : y = ms_stamp b).
  { destruct (Hy outputs_init 0%Z) as [s' E]. unfold read in E.
    pose proof (stamp_value (stamp_init start) b eq_refl Hb) as E'.
    unfold getTimeStamp, getTimeStampDouble in *. cbn [snd offsetSet stamp_init bind] in *.
    injection E as _ E. injection E' as E'. congruence. }
  subst x y.
  assert (M : forall a b, valid a -> valid b -> (micro a < micro b)%Z -> ms_stamp a < ms_stamp b).
  { clear. intros a b Ha Hb H.
    pose proof (Rabs_le_inv _ _ (ms_stamp_err a Ha)). pose proof (Rabs_le_inv _ _ (ms_stamp_err b Hb)).
    pose proof (zlt _ _ H). lra. }
  split; [|apply M; auto]. intros H.
  destruct (Z.lt_trichotomy (micro a) (micro b)) as [L|[E|G]]; auto.
  - exfalso. assert (a = b).
    { destruct a as [s u], b as [s2 u2]. destruct Ha as [_ Hu], Hb as [_ Hu2].
      unfold micro in E. cbn [tv_sec tv_usec] in *. f_equal; lia. }
    subst b. lra.
  - pose proof (M b a Hb Ha G). lra.
Qed.

(** Several accesses to synchro in the same period give the same result, whatever the other
    accesses; the same holds of synchroDouble. *)
Definition keeps (a : access) (o : outputs) : option (Z * reading) :=
  match a with
  | Synchro => option_map (fun p => (fst p, Vec (snd p))) (once o)
  | SynchroDouble => option_map (fun p => (fst p, Dbl (snd p))) (onceDouble o)
  | _ => None
  end.

Lemma read_keeps a b s o t now s' o' x t0 r :
  (a = Synchro \/ a = SynchroDouble) ->
  keeps a o = Some (t0, r) -> (t <= t0)%Z -> read s o b t now = Ok (s', o', x) ->
  keeps a o' = Some (t0, r) /\ (b = a -> x = r).
Proof.
  intros Ha Hk Ht E. destruct o as [o1 o2].
  assert (L : (t <=? t0)%Z = true) by (apply Z.leb_le; lia).
  destruct b; unfold read, getTimeStamp in E; cbn [once onceDouble] in E.
  - injection E as <- <- <-. split; [exact Hk|]. destruct Ha; congruence.
  - destruct (getTimeStampDouble _ _) as [y|w|]; try discriminate. cbn [bind] in E.
    injection E as <- <- <-. split; [exact Hk|]. destruct Ha; congruence.
  - destruct Ha as [-> | ->]; cbn [keeps once onceDouble option_map] in *.
    + destruct o1 as [[t1 v]|]; try discriminate. cbn [option_map fst snd] in Hk.
      injection Hk as -> <-. rewrite L in E. injection E as <- <- <-. split; reflexivity.
    + destruct o1 as [[t1 v]|].
      * destruct (t <=? t1)%Z; injection E as <- <- <-; cbn [onceDouble]; split; auto; discriminate.
      * injection E as <- <- <-. cbn [onceDouble]; split; auto; discriminate.
  - destruct Ha as [-> | ->]; cbn [keeps once onceDouble option_map] in *.
    + destruct (getTimeStampDouble _ _) as [y|w|]; cbn [bind] in E;
        destruct o2 as [[t1 v]|]; try destruct (t <=? t1)%Z; try discriminate;
        injection E as <- <- <-; cbn [once]; split; auto; discriminate.
    + destruct o2 as [[t1 v]|]; try discriminate. cbn [option_map fst snd] in Hk.
      injection Hk as -> <-. rewrite L in E. injection E as <- <- <-. split; reflexivity.
Qed.

Lemma read_sets a s o t now s' o' x :
  (a = Synchro \/ a = SynchroDouble) -> read s o a t now = Ok (s', o', x) ->
  exists t0, (t <= t0)%Z /\ keeps a o' = Some (t0, x).
Proof.
  intros Ha E. destruct o as [o1 o2]. destruct Ha as [-> | ->]; unfold read, getTimeStamp in E; cbn [once onceDouble] in E.
  - destruct o1 as [[t1 v]|].
    + destruct (Z.leb_spec t t1); injection E as <- <- <-.
      * exists t1. cbn. auto.
      * exists t. cbn. split; [lia|]. auto.
    + injection E as <- <- <-. exists t. cbn. split; [lia|]. auto.
  - destruct o2 as [[t1 v]|].
    + destruct (Z.leb_spec t t1).
      * injection E as <- <- <-. exists t1. cbn. auto.
      * destruct (getTimeStampDouble _ _) as [y|w|]; cbn [bind] in E; try discriminate.
        injection E as <- <- <-. exists t. cbn. split; [lia|]. auto.
    + destruct (getTimeStampDouble _ _) as [y|w|]; cbn [bind] in E; try discriminate.
      injection E as <- <- <-. exists t. cbn. split; [lia|]. auto.
Qed.

Lemma reads_app s o h1 h2 l : reads s o (h1 ++ h2) = Ok l ->
  exists s' o' l1 l2, reads s o h1 = Ok l1 /\ reads s' o' h2 = Ok l2 /\ l = l1 ++ l2 /\ length l1 = length h1 /\
    (forall a t0 r, (a = Synchro \/ a = SynchroDouble) -> keeps a o = Some (t0, r) ->
       (forall p, In p h1 -> (snd (fst p) <= t0)%Z) -> keeps a o' = Some (t0, r)).
Proof.
  revert s o l. induction h1 as [|[[a t] now] h1 IH]; intros s o l H.
  - exists s, o, [], l. auto 6.
  - cbn [app reads] in H. destruct (read s o a t now) as [[[s1 o1] x]|w|] eqn:E; try discriminate.
    cbn [bind] in H. destruct (reads s1 o1 (h1 ++ h2)) as [l'|w|] eqn:E2; try discriminate.
    cbn [bind] in H. injection H as <-.
    destruct (IH _ _ _ E2) as (s' & o' & l1 & l2 & A & B & C & D & K).
    exists s', o', (x :: l1), l2. cbn [reads]. rewrite E. cbn [bind]. rewrite A. cbn [bind].
    repeat split; auto.
    + cbn. congruence.
    + cbn. congruence.
    + intros b t0 r Hb Hk Hp. apply K; auto.
      * eapply (read_keeps b a); eauto. apply (Hp (a, t, now)). left. reflexivity.
      * intros p Hin. apply Hp. right. exact Hin.
Qed.

Theorem synchro_constant (a : access) (start : timeval) (t : Z) (n1 n2 : timeval)
    (before between : list (access * Z * timeval)) (l : list reading) (d : reading) :
  a = Synchro \/ a = SynchroDouble ->
  (forall p, In p between -> (snd (fst p) <= t)%Z) ->
  reads (stamp_init start) outputs_init (before ++ (a, t, n1) :: between ++ [(a, t, n2)]) = Ok l ->
  nth (length before) l d = nth (S (length before + length between)) l d.
Proof.
  intros Ha Hm H.
  destruct (reads_app _ _ _ _ _ H) as (s1 & o1 & l1 & l2 & _ & H2 & -> & L1 & _).
  cbn [reads] in H2. destruct (read s1 o1 a t n1) as [[[s2 o2] x]|w|] eqn:E; try discriminate.
  cbn [bind] in H2. destruct (reads s2 o2 (between ++ _)) as [l3|w|] eqn:E3; try discriminate.
  cbn [bind] in H2. injection H2 as <-.
  destruct (read_sets a _ _ _ _ _ _ _ Ha E) as (t0 & Ht & K).
  destruct (reads_app _ _ _ _ _ E3) as (s4 & o4 & l4 & l5 & _ & H5 & -> & L4 & KK).
  assert (K4 : keeps a o4 = Some (t0, x)).
  { apply KK; auto. intros p Hp. specialize (Hm p Hp). lia. }
  cbn [reads] in H5. destruct (read s4 o4 a t n2) as [[[s6 o6] y]|w|] eqn:E6; try discriminate.
  cbn [bind] in H5. injection H5 as <-.
  destruct (read_keeps a a _ _ _ _ _ _ _ _ _ Ha K4 Ht E6) as [_ ->]; auto.
  rewrite app_nth2 by lia. replace (length before - length l1)%nat with 0%nat by lia. cbn [nth].
  rewrite app_nth2 by lia. replace (S (length before + length between) - length l1)%nat
    with (S (length between)) by lia. cbn [nth].
  rewrite app_nth2 by lia. replace (length between - length l4)%nat with 0%nat by lia. reflexivity.
Qed.

(** The two synchronised outputs of the same period do not agree: synchroDouble reads the clock
    again. *)
Definition agrees (v : reading) (x : reading) : Prop :=
  exists s u, v = Vec [IZR s; IZR u] /\ x = Dbl (ms_stamp (TimeVal s u)).

Theorem synchro_outputs_agree_refuted :
  exists (start n1 n2 : timeval) (v x : reading),
    valid start /\ valid n1 /\ valid n2 /\ (micro start <= micro n1 < micro n2)%Z /\
    reads (stamp_init start) outputs_init [(Synchro, 1%Z, n1); (SynchroDouble, 1%Z, n2)] = Ok [v; x] /\
    ~ agrees v x.
Proof.
  set (n1 := TimeVal 0 0). set (n2 := TimeVal 1 0).
  assert (V1 : valid n1) by (split; cbn; lia). assert (V2 : valid n2) by (split; cbn; lia).
  exists n1, n1, n2, (Vec [0; 0]), (Dbl (ms_stamp n2)).
  split; [exact V1|]. split; [exact V1|]. split; [exact V2|]. split; [cbn; lia|]. split.
  - cbn [reads]. unfold read at 1. cbn [outputs_init once]. unfold getTimeStamp at 1. cbn [bind].
    unfold dbl. cbn [tv_sec tv_usec n1]. rewrite (fl_int 0) by lia.
    unfold read. cbn [onceDouble].
    pose proof (stamp_value (Stamp 0 false n1) n2 eq_refl V2) as E.
    unfold getTimeStamp in *. cbn [snd offsetSet offsetValue stamp_init] in *.
    unfold getTimeStampDouble in *. cbn [offsetSet] in *. rewrite E. reflexivity.
  - intros (s & u & E1 & E2). injection E1 as Es Eu. apply eq_IZR in Es, Eu. subst s u.
    injection E2 as E2.
    pose proof (Rabs_le_inv _ _ (ms_stamp_err n2 V2)) as B2.
    pose proof (Rabs_le_inv _ _ (ms_stamp_err n1 V1)) as B1.
    unfold n1 in B1. rewrite <- E2 in B1. unfold micro in B1, B2. cbn [tv_sec tv_usec n1 n2] in B1, B2.
    cbn [Z.mul Z.add Pos.mul] in *. lra.
Qed.

(** They agree when the clock has not moved in between. *)
Theorem synchro_outputs_agree_partial (start now : timeval) (t : Z) :
  valid now ->
  exists v x, reads (stamp_init start) outputs_init [(Synchro, t, now); (SynchroDouble, t, now)] = Ok [v; x] /\
    agrees v x.
Proof.
  intros V. pose proof V as [Vs Vu].
  exists (Vec [IZR (tv_sec now); IZR (tv_usec now)]), (Dbl (ms_stamp now)). split.
  - cbn [reads]. unfold read at 1. cbn [outputs_init once]. unfold getTimeStamp at 1. cbn [bind].
    unfold dbl. rewrite !fl_int by lia. unfold read. cbn [onceDouble].
    pose proof (stamp_value (Stamp 0 false now) now eq_refl V) as E.
    unfold getTimeStamp in *. cbn [snd offsetSet offsetValue stamp_init] in *.
    unfold getTimeStampDouble in *. cbn [offsetSet] in *. rewrite E. reflexivity.
  - exists (tv_sec now), (tv_usec now). destruct now. auto.
Qed.

(** ** C113: Timer *)

Lemma elapsed_wall_value t0 t1 : valid t0 -> valid t1 ->
  elapsed_wall t0 t1 = fl (IZR ((tv_sec t1 - tv_sec t0) * 1000) + fl (IZR (tv_usec t1 - tv_usec t0) / 1000)).
Proof.
  intros [A B] [C D]. unfold elapsed_wall, dbl. rewrite !fl_int by lia.
  rewrite <- !minus_IZR, !fl_int by lia. rewrite <- mult_IZR, fl_int by lia.
  rewrite Rplus_0_r, fl_int by lia. reflexivity.
Qed.

(** The entity gives its input unchanged, and the duration in milliseconds, within a microsecond,
    with the right sign; zero exactly when the clock did not move. *)
Theorem timer_wall {T} (tm : timer) (sin : outcome T) (t0 t1 : timeval) (c0 c1 : Z) :
  valid t0 -> valid t1 ->
  (forall w, sin = Throw w -> compute T false tm sin t0 t1 c0 c1 = Throw w) /\
  forall v, sin = Ok v ->
    exists tm', compute T false tm sin t0 t1 c0 c1 = Ok (tm', v) /\
      Rabs (getDt tm' - IZR (micro t1 - micro t0) / 1000) < 1 / 1000 /\
      (0 < getDt tm' <-> (micro t0 < micro t1)%Z) /\ (getDt tm' = 0 <-> micro t0 = micro t1).
Proof.
  intros V0 V1. split; [intros w ->; reflexivity|]. intros v ->.
  exists (MkTimer (elapsed_wall t0 t1)). split; [reflexivity|]. unfold getDt. cbn [dt].
  rewrite elapsed_wall_value by auto.
  pose proof V0 as [A B]. pose proof V1 as [C D].
  set (x := fl _).
  assert (E : Rabs (x - IZR (micro t1 - micro t0) / 1000) <= / 2048 + / 17592186044416).
  { unfold x, micro.
    replace (IZR (tv_sec t1 * 1000000 + tv_usec t1 - (tv_sec t0 * 1000000 + tv_usec t0)) / 1000)
      with (IZR ((tv_sec t1 - tv_sec t0) * 1000) + IZR (tv_usec t1 - tv_usec t0) / 1000).
    - apply fl_ms; lia.
    - rewrite !minus_IZR, !plus_IZR, !mult_IZR, !minus_IZR. field. }
  split; [eapply Rle_lt_trans; [exact E|]; lra|]. apply Rabs_le_inv in E.
  assert (Hz : micro t0 = micro t1 -> x = 0).
  { intros H. unfold micro in H. assert (tv_sec t1 - tv_sec t0 = 0 /\ tv_usec t1 - tv_usec t0 = 0)%Z as [E1 E2] by lia.
    unfold x. rewrite E1, E2. cbn [Z.mul]. unfold Rdiv. rewrite Rmult_0_l, (fl_int 0), Rplus_0_l, (fl_int 0) by lia.
    reflexivity. }
  assert (Hp : (micro t0 < micro t1)%Z -> 0 < x).
  { intros H. apply Zlt_left in H. assert (1 <= micro t1 - micro t0)%Z as H' by lia.
    apply IZR_le in H'. simpl in H'. lra. }
  assert (Hn : (micro t1 < micro t0)%Z -> x < 0).
  { intros H. assert (micro t1 - micro t0 <= -1)%Z as H' by lia. apply IZR_le in H'. simpl in H'. lra. }
  destruct (Z.lt_trichotomy (micro t0) (micro t1)) as [L|[Q|G]].
  - specialize (Hp L). split; split; intros; try lia; try lra.
  - specialize (Hz Q). split; split; intros; try lia; try lra.
  - specialize (Hn G). split; split; intros; try lia; try lra.
Qed.

(** With the processor clock: microseconds of processor time. *)
Theorem timer_clock {T} (tm : timer) (v : T) (t0 t1 : timeval) (c0 c1 : Z) :
  (Z.abs (c1 - c0) < 2 ^ 43)%Z ->
  exists tm', compute T true tm (Ok v) t0 t1 c0 c1 = Ok (tm', v) /\
    Rabs (getDt tm' - IZR (c1 - c0) / 1000) < 1 / 1000 /\
    (0 < getDt tm' <-> (c0 < c1)%Z).
Proof.
  intros H. exists (MkTimer (elapsed_clock c0 c1)). split; [reflexivity|]. unfold getDt. cbn [dt].
  unfold elapsed_clock, dbl. rewrite fl_int by lia. rewrite <- mult_IZR, fl_int by lia.
  replace (IZR ((c1 - c0) * 1000) / 1000000) with (IZR (c1 - c0) / 1000) by (rewrite mult_IZR; field).
  assert (H1 : IZR (- 2 ^ 43) < IZR (c1 - c0)) by (apply IZR_lt; lia).
  assert (H2 : IZR (c1 - c0) < IZR (2 ^ 43)) by (apply IZR_lt; lia). simpl in H1, H2.
  assert (E : Rabs (fl (IZR (c1 - c0) / 1000) - IZR (c1 - c0) / 1000) <= bpow radix2 (43 - 54)).
  { apply fl_err; [lia|]. rewrite b43. apply Rabs_def1; lra. }
  rewrite bm11 in E. split; [eapply Rle_lt_trans; [exact E|]; lra|]. apply Rabs_le_inv in E.
  split.
  - intros P. destruct (Z.lt_ge_cases c0 c1) as [L|G]; auto.
    destruct (Z.eq_dec (c1 - c0) 0) as [Q|Q].
    + rewrite Q in P. unfold Rdiv in P. rewrite Rmult_0_l, (fl_int 0) in P by lia. lra.
    + assert (c1 - c0 <= -1)%Z as H' by lia. apply IZR_le in H'. lra.
  - intros L. assert (1 <= c1 - c0)%Z as H' by lia. apply IZR_le in H'. lra.
Qed.

(** The duration given by the signal timer after any history of readings, of which some fail: the
    one of the last reading that succeeded, and zero before. *)
Definition timer_reading (T : Type) : Type := (bool * outcome T * timeval * timeval * Z * Z)%type.
Definition timer_read {T} (tm : timer) (r : timer_reading T) : timer :=
  let '(k, v, t0, t1, c0, c1) := r in
  match compute T k tm v t0 t1 c0 c1 with Ok (tm', _) => tm' | _ => tm end.
Definition succeeded {T} (r : timer_reading T) : bool :=
  let '(_, v, _, _, _, _) := r in match v with Ok _ => true | _ => false end.
Definition duration {T} (r : timer_reading T) : R :=
  let '(k, _, t0, t1, c0, c1) := r in if k then elapsed_clock c0 c1 else elapsed_wall t0 t1.
Theorem timer_last {T} (h : list (timer_reading T)) :
  getDt (fold_left timer_read h timer_init) = last (map duration (filter succeeded h)) 0.
Proof.
  induction h as [|r h IH] using rev_ind; [reflexivity|].
  rewrite fold_left_app, filter_app, map_app. cbn [fold_left filter].
  destruct r as [[[[[k v] t0] t1] c0] c1]. cbn [succeeded]. destruct v as [v|e|]; cbn [map].
  - rewrite last_last. reflexivity.
  - rewrite app_nil_r, <- IH. reflexivity.
  - rewrite app_nil_r, <- IH. reflexivity.
Qed.

(** A clock set back during the computation gives a negative duration. *)
Theorem timer_nonnegative_refuted :
  exists (t0 t1 : timeval) tm', valid t0 /\ valid t1 /\
    compute unit false timer_init (Ok tt) t0 t1 0 0 = Ok (tm', tt) /\ getDt tm' < 0.
Proof.
  set (t0 := TimeVal 1 0). set (t1 := TimeVal 0 0).
  assert (V0 : valid t0) by (split; cbn; lia). assert (V1 : valid t1) by (split; cbn; lia).
  destruct (proj2 (timer_wall timer_init (Ok tt) t0 t1 0 0 V0 V1) tt eq_refl) as (tm' & E & B & _).
  exists t0, t1, tm'. split; auto. split; auto. split; auto.
  apply Rabs_def2 in B. unfold micro in B. cbn [tv_sec tv_usec t0 t1] in B.
  cbn [Z.mul Z.add Pos.mul Z.sub Z.opp] in B. lra.
Qed.

(** Non-trivial cases. *)
Example clock_case : valid (TimeVal 1700000000 123456) /\ micro (TimeVal 1700000000 123456) = 1700000000123456%Z.
Proof. split; [split; cbn; lia|reflexivity]. Qed.
Example synchro_case :
  exists l, reads (stamp_init (TimeVal 0 0)) outputs_init
    ([] ++ (Synchro, 1%Z, TimeVal 5 0) :: [(Time, 1%Z, TimeVal 5 1)] ++ [(Synchro, 1%Z, TimeVal 5 2)]) = Ok l.
Proof. eexists. reflexivity. Qed.

Print Assumptions timestamp_milliseconds.
Print Assumptions timestamp_increasing.
Print Assumptions synchro_constant.
Print Assumptions synchro_outputs_agree_refuted.
Print Assumptions synchro_outputs_agree_partial.
Print Assumptions timer_wall.
Print Assumptions timer_clock.
Print Assumptions timer_nonnegative_refuted.
Print Assumptions timer_last.
