(** C117: a device driven in acceleration by a ControlPD follows its reference, for exactly the
    gains that the sampling period allows. *)
From Coq Require Import String List Arith Lia Bool Reals Lra Psatz Classical.
From Verif Require Import Base Device_Model Device_Props Tools_Model PdLoop_Model.
Import ListNotations.
Local Open Scope R_scope.

(** ** Linear recurrences of order two *)
Lemma decreasing_limit (V : nat -> R) : (forall n, 0 <= V n) -> (forall n, V (S n) <= V n) -> exists l, Un_cv V l.
Proof.
  intros Hp Hd. assert (Hub : has_lb V).
  { exists 0. intros x (n & ->). unfold opp_seq. specialize (Hp n). lra. }
  destruct (decreasing_cv V Hd Hub) as (l & Hl). eauto.
Qed.
Lemma cv_shift (x : nat -> R) l : Un_cv x l -> Un_cv (fun n => x (S n)) l.
Proof. intros Hx e He. destruct (Hx e He) as (N & HN). exists N. intros n Hn. apply HN. lia. Qed.
Lemma cv_ext (x y : nat -> R) l : (forall n, x n = y n) -> Un_cv x l -> Un_cv y l.
Proof. intros E Hx e He. destruct (Hx e He) as (N & HN). exists N. intros n Hn. rewrite <- E. apply HN, Hn. Qed.
Lemma cv_scale (x : nat -> R) c : Un_cv x 0 -> Un_cv (fun n => c * x n) 0.
Proof.
  intros Hx. replace 0 with (c * 0) by ring. apply (CV_mult (fun _ => c)); [|exact Hx].
  intros e He. exists 0%nat. intros n _. unfold R_dist. rewrite Rminus_diag_eq by reflexivity. now rewrite Rabs_R0.
Qed.
Lemma cv_sum (x y : nat -> R) : Un_cv x 0 -> Un_cv y 0 -> Un_cv (fun n => x n + y n) 0.
Proof. intros Hx Hy. replace 0 with (0 + 0) by ring. now apply CV_plus. Qed.
Lemma cv_square (x : nat -> R) : Un_cv (fun n => x n * x n) 0 -> Un_cv x 0.
Proof.
  intros Hx e He. destruct (Hx (e * e)) as (N & HN); [nra|]. exists N. intros n Hn. specialize (HN n Hn).
  unfold R_dist in *. rewrite Rminus_0_r in *. rewrite (Rabs_pos_eq (x n * x n)) in HN by nra.
  apply Rabs_def1; nra.
Qed.

Lemma recurrence_converges (T D : R) (x : nat -> R) :
  (forall n, x (S (S n)) = T * x (S n) - D * x n) -> Rabs T < 1 + D -> D < 1 -> Un_cv x 0.
Proof.
  intros Hx HT HD.
  assert (HT' : - (1 + D) < T < 1 + D) by (apply Rabs_def2 in HT; lra).
  set (V n := (1 + D) * (x (S n) * x (S n) + x n * x n) - 2 * T * (x (S n) * x n)).
  set (a n := T * x (S n) - (1 + D) * x n).
  assert (HV : forall n, 0 <= V n).
  { intros n. unfold V. set (p := x (S n)). set (q := x n).
    destruct (Rle_dec 0 T) as [P|P].
    - replace (_ - _) with ((1 + D - T) * (p * p + q * q) + T * ((p - q) * (p - q))) by ring.
      assert (0 <= p * p + q * q) by nra. pose proof (Rle_0_sqr (p - q)) as Q; unfold Rsqr in Q.
      apply Rplus_le_le_0_compat; apply Rmult_le_pos; try assumption; lra.
    - replace (_ - _) with ((1 + D + T) * (p * p + q * q) + (- T) * ((p + q) * (p + q))) by ring.
      assert (0 <= p * p + q * q) by nra. pose proof (Rle_0_sqr (p + q)) as Q; unfold Rsqr in Q.
      apply Rplus_le_le_0_compat; apply Rmult_le_pos; try assumption; lra. }
  assert (HW : forall n, V n - V (S n) = (1 - D) * (a n * a n)).
  { intros n. unfold V, a. rewrite (Hx n). ring. }
  assert (HS : forall n, V (S n) <= V n).
  { intros n. specialize (HW n). assert (0 <= (1 - D) * (a n * a n)) by (apply Rmult_le_pos; [lra|nra]). lra. }
  destruct (decreasing_limit V HV HS) as (l & Hl).
  assert (Ha : Un_cv a 0).
  { apply cv_square. apply (cv_ext (fun n => / (1 - D) * (V n - V (S n)))).
    - intros n. rewrite HW. field. lra.
    - apply cv_scale. replace 0 with (l - l) by ring. apply CV_minus; [exact Hl|apply cv_shift, Hl]. }
  set (m := (1 + D) * (1 + D) - T * T). assert (Hm : 0 < m) by (unfold m; nra).
  apply (cv_ext (fun n => ((T * T - (1 + D)) / m) * a n + (- T / m) * a (S n))).
  - intros n. unfold a. rewrite (Hx n). unfold m. field. fold m. lra.
  - apply cv_sum; apply cv_scale; [exact Ha|apply cv_shift, Ha].
Qed.

Lemma recurrence_stays (T D : R) (x : nat -> R) :
  (forall n, x (S (S n)) = T * x (S n) - D * x n) -> 1 + D <= T -> -1 < D ->
  1 <= x 0%nat -> x 0%nat <= x 1%nat -> forall n, 1 <= x n.
Proof.
  intros Hx HT HD H0 H1. destruct (Rle_dec 0 D) as [P|P].
  - assert (K : forall n, 1 <= x n /\ x n <= x (S n)).
    { induction n as [|n [A B]]; [auto|]. split; [lra|]. rewrite Hx.
      assert (0 <= (T - (1 + D)) * x (S n)) by (apply Rmult_le_pos; lra).
      assert (0 <= D * (x (S n) - x n)) by (apply Rmult_le_pos; lra). nra. }
    intros n. apply K.
  - assert (K : forall n, 1 <= x n /\ 1 <= x (S n)).
    { induction n as [|n [A B]]; [split; lra|]. split; [lra|]. rewrite Hx.
      assert (0 <= (T - (1 + D)) * x (S n)) by (apply Rmult_le_pos; lra).
      assert (0 <= (- D) * (x n - 1)) by (apply Rmult_le_pos; lra).
      assert (0 <= (1 + D) * (x (S n) - 1)) by (apply Rmult_le_pos; lra). nra. }
    intros n. apply K.
Qed.
Lemma not_to_zero (x : nat -> R) : (forall n, 1 <= Rabs (x n)) -> ~ Un_cv x 0.
Proof.
  intros Hx C. destruct (C 1) as (N & HN); [lra|]. specialize (HN N (Nat.le_refl N)). specialize (Hx N).
  unfold R_dist in HN. rewrite Rminus_0_r in HN. lra.
Qed.

(** ** One joint: error of position and error of velocity *)
Definition pd_next (kp kd dt : R) (ew : R * R) : R * R :=
  accelerated ew (- kp * fst ew - kd * snd ew) dt.
Definition orbit (kp kd dt : R) (ew : R * R) (n : nat) : R * R := Nat.iter n (pd_next kp kd dt) ew.
(** The gains that a sampling period allows. *)
Definition allowed (dt kp kd : R) : Prop := 0 < kp /\ dt * kp / 2 < kd /\ dt * kd < 2.
Definition to_zero (z : nat -> R * R) : Prop := Un_cv (fun n => fst (z n)) 0 /\ Un_cv (fun n => snd (z n)) 0.

Section Joint.
Variables kp kd dt : R.
Hypothesis Hdt : 0 < dt.
Let T := 2 - dt * dt * kp / 2 - dt * kd.
Let D := 1 - dt * kd + dt * dt * kp / 2.
Lemma orbit_S z n : orbit kp kd dt z (S n) = pd_next kp kd dt (orbit kp kd dt z n).
Proof. reflexivity. Qed.
Lemma orbit_fst z n : fst (orbit kp kd dt z (S (S n))) = T * fst (orbit kp kd dt z (S n)) - D * fst (orbit kp kd dt z n).
Proof. rewrite !orbit_S. destruct (orbit kp kd dt z n) as [e w]. unfold pd_next, accelerated, T, D. cbn [fst snd]. field. Qed.
Lemma orbit_snd z n : snd (orbit kp kd dt z (S (S n))) = T * snd (orbit kp kd dt z (S n)) - D * snd (orbit kp kd dt z n).
Proof. rewrite !orbit_S. destruct (orbit kp kd dt z n) as [e w]. unfold pd_next, accelerated, T, D. cbn [fst snd]. field. Qed.

Lemma allowed_converges z : allowed dt kp kd -> to_zero (orbit kp kd dt z).
Proof.
  intros (H1 & H2 & H3).
  assert (P1 : 0 < dt * kp) by nra. assert (P2 : 0 < dt * (dt * kp)) by nra.
  assert (P3 : dt * (dt * kp / 2) < dt * kd) by nra.
  assert (HT : Rabs T < 1 + D) by (apply Rabs_def1; unfold T, D; nra).
  assert (HD : D < 1) by (unfold D; nra).
  split.
  - apply (recurrence_converges T D); auto. intros n. apply orbit_fst.
  - apply (recurrence_converges T D); auto. intros n. apply orbit_snd.
Qed.

(** The area of two motions. *)
Lemma area n : let a := orbit kp kd dt (1, 0) n in let b := orbit kp kd dt (0, 1) n in
  fst a * snd b - fst b * snd a = D ^ n.
Proof.
  induction n as [|n IH]; [cbn; ring|]. cbv zeta in *. rewrite !orbit_S.
  destruct (orbit kp kd dt (1, 0) n) as [e w]. destruct (orbit kp kd dt (0, 1) n) as [e' w'].
  cbn [fst snd] in IH. cbn [pow]. rewrite <- IH. unfold pd_next, accelerated, D. cbn [fst snd]. field.
Qed.

Lemma converges_allowed : (forall z, to_zero (orbit kp kd dt z)) -> allowed dt kp kd.
Proof.
  intros C. assert (HD : Rabs D < 1).
  { destruct (Rlt_dec (Rabs D) 1) as [|N]; [assumption|]. exfalso.
    apply (not_to_zero (fun n => D ^ n)).
    - intros n. rewrite <- RPow_abs. apply pow_R1_Rle. lra.
    - destruct (C (1, 0)) as [C1 C2]. destruct (C (0, 1)) as [C3 C4].
      assert (Z0 : 0 * 0 - 0 * 0 = 0) by ring. rewrite <- Z0.
      apply (cv_ext _ _ _ (fun n => area n)). cbv zeta.
      apply (CV_minus (fun n => fst (orbit kp kd dt (1, 0) n) * snd (orbit kp kd dt (0, 1) n))
                      (fun n => fst (orbit kp kd dt (0, 1) n) * snd (orbit kp kd dt (1, 0) n)));
        apply (CV_mult (fun n => fst _) (fun n => snd _)); assumption. }
  assert (HD' : -1 < D < 1) by (apply Rabs_def2 in HD; lra).
  assert (H2 : dt * kp / 2 < kd).
  { assert (dt * (dt * kp / 2) < dt * kd) by (unfold D in HD'; nra). nra. }
  assert (H1 : 0 < kp).
  { destruct (Rlt_dec 0 kp) as [|N]; [assumption|]. exfalso. assert (K : kp <= 0) by lra.
    assert (Kd : dt * dt * kp <= 0) by nra.
    apply (not_to_zero (fun n => fst (orbit kp kd dt (1, 0) n))); [|apply C].
    intros n. assert (1 <= fst (orbit kp kd dt (1, 0) n)).
    { apply (recurrence_stays T D (fun n => fst (orbit kp kd dt (1, 0) n))).
      - intros m. apply orbit_fst.
      - unfold T, D. lra.
      - lra.
      - cbn. lra.
      - cbn. nra. }
    rewrite Rabs_pos_eq; lra. }
  split; [exact H1|]. split; [exact H2|].
  destruct (Rlt_dec (dt * kd) 2) as [|N]; [assumption|]. exfalso.
  set (y := fun n => (-1) ^ n * snd (orbit kp kd dt (0, 1) n)).
  assert (Y : forall n, 1 <= y n).
  { apply (recurrence_stays (- T) D).
    - intros m. unfold y. rewrite orbit_snd. cbn [pow]. ring.
    - unfold T, D. lra.
    - lra.
    - unfold y. cbn. lra.
    - unfold y. cbn. nra. }
  apply (not_to_zero (fun n => snd (orbit kp kd dt (0, 1) n))); [|apply C].
  intros n. specialize (Y n). unfold y in Y. rewrite <- (Rabs_pos_eq (_ * _)) in Y by lra.
  rewrite Rabs_mult, pow_1_abs, Rmult_1_l in Y. exact Y.
Qed.
End Joint.

(** ** The loop *)
Section Loop.
Variable ltb : R -> R -> bool.
Variable isnan : R -> bool.
Variable ffint : list R -> list R -> R -> R * R * R * R * R * R.

(** A device in second order integration, whose signals are up to date (as after
    setSecondOrderIntegration, setState, setVelocity or a tick), with bound checks off; the last
    [m] of its [n] joints are controlled. *)
Record ready (n m : nat) (d : device R) : Prop := {
  r_sanity : sanity d = false; r_mode : ctype d = TwoInteg;
  r_state : length (state d) = n; r_velocity : length (velocity d) = n;
  r_stateOut : stateOut d = state d; r_velOut : velOut d = velocity d;
  r_some : (m < n)%nat }.
(** A reference that moves at constant velocity: positions and velocities at tick [t]. *)
Definition ref_at (dt : R) (q v : list R) (t : nat) : list R * list R :=
  (map (fun x => fst x + INR t * dt * snd x) (combine q v), v).
Definition refs (dt : R) (q v : list R) (t : nat) : list (list R * list R) := map (ref_at dt q v) (seq 0 t).
(** Error of position and velocity of joint [i] of the last [m]. *)
Definition gap_at (n m : nat) (dt : R) (q v : list R) (t : nat) (d : device R) (i : nat) : R * R :=
  (nth (n - m + i) (state d) 0 - (nth i q 0 + INR t * dt * nth i v 0), nth (n - m + i) (velocity d) 0 - nth i v 0).

Lemma nth_combine_map2 (f : R * R -> R) a b i : (i < length a)%nat -> (i < length b)%nat ->
  nth i (map f (combine a b)) 0 = f (nth i a 0, nth i b 0).
Proof.
  revert b i. induction a as [|x a IH]; intros [|y b] [|i]; cbn; try lia; intros Ha Hb; [reflexivity|]. apply IH; lia.
Qed.

Lemma nth_skipn_add k (l : list R) i : nth i (skipn k l) 0 = nth (k + i) l 0.
Proof. revert l. induction k as [|k IH]; intros l; [reflexivity|]. destruct l; [now destruct i|]. apply IH. Qed.
Lemma firstn_same k (a b : list R) : length a = length b -> (forall j, (j < k)%nat -> nth j a 0 = nth j b 0) ->
  firstn k a = firstn k b.
Proof.
  revert a b. induction k as [|k IH]; intros [|x a] [|y b] L Hn; cbn in *; try discriminate; try reflexivity.
  f_equal; [apply (Hn 0%nat); lia|]. apply IH; [lia|]. intros j Hj. apply (Hn (S j)). lia.
Qed.

Lemma tick_any n m kp kd dt qd vd d : ready n m d -> length kp = m -> length kd = m -> length qd = m -> length vd = m ->
  exists d', pd_tick ltb isnan ffint (n - m) kp kd dt d (qd, vd) = Ok d' /\ ready n m d' /\
    firstn (n - m) (state d') = firstn (n - m) (state d) /\
    firstn (n - m) (velocity d') = firstn (n - m) (velocity d) /\
    forall i, (i < m)%nat ->
      (nth (n - m + i) (state d') 0, nth (n - m + i) (velocity d') 0) =
      accelerated (nth (n - m + i) (state d) 0, nth (n - m + i) (velocity d) 0)
        ((nth i qd 0 - nth (n - m + i) (state d) 0) * nth i kp 0 +
         (nth i vd 0 - nth (n - m + i) (velocity d) 0) * nth i kd 0) dt.
Proof.
  intros [A B C D E F G] Lp Ld Lqd Lv. unfold pd_tick. cbn [fst snd]. rewrite E, F.
  assert (Ls : length (skipn (n - m) (state d)) = m) by (rewrite skipn_length; lia).
  assert (Lw : length (skipn (n - m) (velocity d)) = m) by (rewrite skipn_length; lia).
  unfold pd_control, zipR.
  set (pe := map (fun p => fst p - snd p) (combine qd (skipn (n - m) (state d)))).
  set (ve := map (fun p => fst p - snd p) (combine vd (skipn (n - m) (velocity d)))).
  assert (Lpe : length pe = m) by (unfold pe; rewrite map_length, combine_length; lia).
  assert (Lve : length ve = m) by (unfold ve; rewrite map_length, combine_length; lia).
  rewrite Lqd, Ls, Nat.eqb_refl. cbn [bind]. fold pe. rewrite Lv, Lw, Nat.eqb_refl. cbn [bind]. fold ve.
  rewrite Lpe, Lp, Nat.eqb_refl. cbn [bind]. rewrite Lve, Ld, Nat.eqb_refl. cbn [bind].
  set (a := map (fun p => fst p * snd p) (combine pe kp)). set (b := map (fun p => fst p * snd p) (combine ve kd)).
  assert (La : length a = m) by (unfold a; rewrite map_length, combine_length; lia).
  assert (Lb : length b = m) by (unfold b; rewrite map_length, combine_length; lia).
  rewrite La, Lb, Nat.eqb_refl. cbn [bind]. set (tau := map _ (combine a b)).
  assert (Lt : length tau = m) by (unfold tau; rewrite map_length, combine_length; lia).
  destruct (second_order_step ltb isnan ffint d tau dt n A B C D) as (d' & Ed & S1 & S2 & S3 & S4 & S5 & S6 & S8 & S7); [lia|lia|].
  exists d'. split; [exact Ed|]. split; [constructor; auto|].
  split; [apply firstn_same; [lia|]; intros j Hj; apply S8; lia|].
  split; [apply firstn_same; [lia|]; intros j Hj; apply S8; lia|].
  intros i Hi. assert (Hd : drives n tau (n - m + i)) by (unfold drives; lia).
  rewrite (S7 _ Hd). unfold drive. rewrite Lt. replace (n - m + i - (n - m))%nat with i by lia. f_equal.
  unfold tau. rewrite nth_combine_map2 by lia. unfold a, b. rewrite !nth_combine_map2 by lia.
  unfold pe, ve. rewrite !nth_combine_map2 by lia. cbn [fst snd]. now rewrite !nth_skipn_add.
Qed.

Lemma tick n m kp kd dt q v t d : ready n m d -> length kp = m -> length kd = m -> length q = m -> length v = m ->
  exists d', pd_tick ltb isnan ffint (n - m) kp kd dt d (ref_at dt q v t) = Ok d' /\ ready n m d' /\
    forall i, (i < m)%nat ->
      gap_at n m dt q v (S t) d' i = pd_next (nth i kp 0) (nth i kd 0) dt (gap_at n m dt q v t d i).
Proof.
  intros Hr Lp Ld Lq Lv. unfold ref_at. set (qd := map _ (combine q v)).
  assert (Lqd : length qd = m) by (unfold qd; rewrite map_length, combine_length; lia).
  destruct (tick_any n m kp kd dt qd v d Hr Lp Ld Lqd Lv) as (d' & E & R' & _ & _ & K).
  exists d'. split; [exact E|]. split; [exact R'|]. intros i Hi. specialize (K i Hi).
  unfold gap_at at 1. injection K as K1 K2. rewrite K1, K2. unfold qd. rewrite nth_combine_map2 by lia.
  unfold pd_next, accelerated. cbn [fst snd]. rewrite S_INR. unfold gap_at. cbn [fst snd]. f_equal; field.
Qed.

Lemma run n m kp kd dt q v t d : ready n m d -> length kp = m -> length kd = m -> length q = m -> length v = m ->
  exists d', pd_run ltb isnan ffint (n - m) kp kd dt (refs dt q v t) d = Ok d' /\ ready n m d' /\
    forall i, (i < m)%nat ->
      gap_at n m dt q v t d' i = orbit (nth i kp 0) (nth i kd 0) dt (gap_at n m dt q v 0 d i) t.
Proof.
  intros Hr Lp Ld Lq Lv. induction t as [|t (d1 & E1 & R1 & G1)].
  - exists d. split; [reflexivity|]. split; [exact Hr|]. reflexivity.
  - destruct (tick n m kp kd dt q v t d1 R1 Lp Ld Lq Lv) as (d2 & E2 & R2 & G2).
    exists d2. split; [|split; [exact R2|]].
    + unfold pd_run, refs. rewrite seq_S, map_app, ofold_app. unfold pd_run, refs in E1. rewrite E1. cbn [bind map ofold]. cbn [plus]. rewrite E2. reflexivity.
    + intros i Hi. rewrite G2 by exact Hi. rewrite G1 by exact Hi. reflexivity.
Qed.

(** The loop follows the reference from the device [d]: every tick is defined, and the errors of
    position and velocity of the controlled joints go to zero. *)
Definition follows (n m : nat) (kp kd : list R) (dt : R) (q v : list R) (d : device R) : Prop :=
  exists z : nat -> device R,
    (forall t, pd_run ltb isnan ffint (n - m) kp kd dt (refs dt q v t) d = Ok (z t)) /\
    forall i, (i < m)%nat -> to_zero (fun t => gap_at n m dt q v t (z t) i).

Lemma run_seq n m kp kd dt q v d : ready n m d -> length kp = m -> length kd = m -> length q = m -> length v = m ->
  exists z : nat -> device R, forall t,
    pd_run ltb isnan ffint (n - m) kp kd dt (refs dt q v t) d = Ok (z t) /\
    forall i, (i < m)%nat -> gap_at n m dt q v t (z t) i = orbit (nth i kp 0) (nth i kd 0) dt (gap_at n m dt q v 0 d i) t.
Proof.
  intros Hr Lp Ld Lq Lv.
  exists (fun t => match pd_run ltb isnan ffint (n - m) kp kd dt (refs dt q v t) d with Ok d' => d' | _ => d end).
  intros t. destruct (run n m kp kd dt q v t d Hr Lp Ld Lq Lv) as (d' & E & _ & G). rewrite E. auto.
Qed.

(** With allowed gains the loop follows every reference of constant velocity from every state. *)
Theorem pd_loop_follows n m kp kd dt q v d : 0 < dt -> ready n m d ->
  length kp = m -> length kd = m -> length q = m -> length v = m ->
  (forall i, (i < m)%nat -> allowed dt (nth i kp 0) (nth i kd 0)) ->
  follows n m kp kd dt q v d.
Proof.
  intros Hdt Hr Lp Ld Lq Lv Ha. destruct (run_seq n m kp kd dt q v d Hr Lp Ld Lq Lv) as (z & Hz).
  exists z. split; [apply Hz|]. intros i Hi.
  destruct (allowed_converges _ _ dt Hdt (gap_at n m dt q v 0 d i) (Ha i Hi)) as [C1 C2].
  split; [apply (cv_ext _ _ _ (fun t => f_equal fst (eq_sym (proj2 (Hz t) i Hi))) C1)|apply (cv_ext _ _ _ (fun t => f_equal snd (eq_sym (proj2 (Hz t) i Hi))) C2)].
Qed.

(** No other gains do: if the loop follows one reference from every state then the gains are
    allowed. *)
Theorem pd_loop_gains n m kp kd dt q v : 0 < dt -> (m < n)%nat ->
  length kp = m -> length kd = m -> length q = m -> length v = m ->
  (forall d, ready n m d -> follows n m kp kd dt q v d) ->
  forall i, (i < m)%nat -> allowed dt (nth i kp 0) (nth i kd 0).
Proof.
  intros Hdt Hmn Lp Ld Lq Lv HF i Hi. apply converges_allowed; [exact Hdt|]. intros [e w].
  set (st := repeat 0 (n - m) ++ map (fun x => x + e) q). set (ve := repeat 0 (n - m) ++ map (fun x => x + w) v).
  set (d := mkDevice st ve [] false TwoInteg [] [] [] [] [] [] st ve).
  assert (Hr : ready n m d).
  { constructor; try reflexivity; try exact Hmn; unfold d, st, ve; cbn; rewrite app_length, repeat_length, map_length; lia. }
  assert (G0 : gap_at n m dt q v 0 d i = (e, w)).
  { unfold gap_at, d, st, ve. cbn [state velocity]. rewrite !app_nth2; rewrite ?repeat_length; try lia.
    replace (n - m + i - (n - m))%nat with i by lia.
    assert (Km : forall c l, (i < length l)%nat -> nth i (map (fun x => x + c) l) 0 = nth i l 0 + c).
    { intros c l Hl. rewrite (nth_indep _ 0 (0 + c)) by (now rewrite map_length). apply (map_nth (fun x => x + c)). }
    rewrite !Km by lia. cbn [INR]. f_equal; ring. }
  destruct (HF d Hr) as (z & Hz & C). specialize (C i Hi).
  assert (E : forall t, gap_at n m dt q v t (z t) i = orbit (nth i kp 0) (nth i kd 0) dt (e, w) t).
  { intros t. destruct (run n m kp kd dt q v t d Hr Lp Ld Lq Lv) as (d' & E & _ & G).
    rewrite (Hz t) in E. injection E as <-. rewrite (G i Hi), G0. reflexivity. }
  destruct C as [C1 C2]. split; [apply (cv_ext _ _ _ (fun t => f_equal fst (E t)) C1)|apply (cv_ext _ _ _ (fun t => f_equal snd (E t)) C2)].
Qed.

(** The joints that are not controlled do not move. *)
Theorem pd_loop_leaves n m kp kd dt rs d : ready n m d -> length kp = m -> length kd = m ->
  Forall (fun r => length (fst r) = m /\ length (snd r) = m) rs ->
  exists d', pd_run ltb isnan ffint (n - m) kp kd dt rs d = Ok d' /\ ready n m d' /\
    firstn (n - m) (state d') = firstn (n - m) (state d) /\
    firstn (n - m) (velocity d') = firstn (n - m) (velocity d).
Proof.
  intros Hr Lp Ld HF. revert d Hr. induction HF as [|[qd vd] rs [L1 L2] _ IH]; intros d Hr.
  - exists d. repeat split; try apply Hr; reflexivity.
  - cbn [fst snd] in *. destruct (tick_any n m kp kd dt qd vd d Hr Lp Ld L1 L2) as (d1 & E1 & R1 & F1 & F2 & _).
    destruct (IH d1 R1) as (d2 & E2 & R2 & F3 & F4). exists d2. unfold pd_run in *. cbn [ofold]. rewrite E1. cbn [bind].
    split; [exact E2|]. split; [exact R2|]. split; congruence.
Qed.

(** The device is ready once the application has chosen second order integration and set a
    configuration and velocities. *)
Theorem pd_loop_ready n m st ve d : (m < n)%nat -> length st = n -> length ve = n ->
  exists d', ofold (dexec R 0 (1 / 2) Rplus Rmult ltb isnan ffint)
               [DSanity false; DSecondOrder; DSet st; DSetVelocity ve] d = Ok d' /\
    ready n m d' /\ state d' = st /\ velocity d' = ve.
Proof.
  intros Hm Ls Lv. cbn. eexists. split; [reflexivity|]. split; [constructor; cbn; auto|]. split; reflexivity.
Qed.
End Loop.

(** Critically damped gains are allowed exactly below the natural frequency 1 / dt. *)
Theorem critical_gains (dt f : R) : 0 < dt -> 0 < f -> allowed dt (f * f) (2 * f) <-> f * dt < 1.
Proof. intros Hd Hf. unfold allowed. split; [intros (_ & _ & H3); nra|intros Hl]. repeat split; nra. Qed.

(** Without a derivative gain no loop follows its reference from every state. *)
Theorem proportional_only ltb isnan ffint n m kp dt q v : 0 < dt -> (0 < m < n)%nat ->
  length kp = m -> length q = m -> length v = m ->
  exists d, ready n m d /\ ~ follows ltb isnan ffint n m kp (repeat 0 m) dt q v d.
Proof.
  intros Hdt Hm Lp Lq Lv.
  destruct (Classical_Pred_Type.not_all_ex_not _ (fun d => ready n m d -> follows ltb isnan ffint n m kp (repeat 0 m) dt q v d))
    as (d & Hd).
  - intros HF. assert (Lr : length (repeat 0 m) = m) by apply repeat_length.
    destruct (pd_loop_gains ltb isnan ffint n m kp (repeat 0 m) dt q v Hdt (proj2 Hm) Lp Lr Lq Lv HF 0%nat (proj1 Hm))
      as (H1 & H2 & _).
    rewrite nth_repeat in H2. nra.
  - exists d. split; [|intros F; apply Hd; intros _; exact F].
    apply Classical_Prop.NNPP. intros N. apply Hd. intros Hr. contradiction.
Qed.

(** One joint after a free flyer: gains 100 and 20 at 10 ms, reference moving at 1 rad/s. *)
Example pd_loop_case ltb isnan ffint :
  exists d, ready 7 1 d /\ state d = repeat 0 7 /\ follows ltb isnan ffint 7 1 [100] [20] (1 / 100) [3] [1] d.
Proof.
  destruct (pd_loop_ready ltb isnan ffint 7 1 (repeat 0 7) (repeat 0 7) (dev_init R 0)) as (d & _ & Hr & Hs & _); [lia|reflexivity|reflexivity|].
  exists d. split; [exact Hr|]. split; [exact Hs|].
  apply pd_loop_follows; try reflexivity; [lra|exact Hr|]. intros [|i] Hi; [|lia]. cbn [nth]. unfold allowed. lra.
Qed.
(** The same gains at 110 ms are not allowed. *)
Example pd_loop_slow : ~ allowed (11 / 100) 100 20.
Proof. unfold allowed. lra. Qed.

Print Assumptions pd_loop_follows.
Print Assumptions pd_loop_gains.
Print Assumptions pd_loop_leaves.
Print Assumptions pd_loop_ready.
Print Assumptions critical_gains.
Print Assumptions proportional_only.
