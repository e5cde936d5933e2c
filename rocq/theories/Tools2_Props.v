(** Gradient ascent, periodic motions, neck limitation and control laws (properties C79-C82). *)
From Coq Require Import String List Arith Lia ZArith Bool Reals Lra Psatz.
From Verif Require Import Base Tools_Model Tools_Props.
Import ListNotations.
Local Open Scope R_scope.

(** ** C79: GradientAscent *)
Fixpoint ga_run (g : gascent) (h : list (list R * R)) : outcome (list (list R) * gascent) :=
  match h with
  | [] => Ok ([], g)
  | (gr, rate) :: r =>
      let* (o, g1) := ga_update g gr rate in
      let* (os, g2) := ga_run g1 r in
      Ok (o :: os, g2)
  end.

(** Sum over the first evaluations of rate times gradient, component [i]. *)
Fixpoint ascent (h : list (list R * R)) (i : nat) : R :=
  match h with [] => 0 | (gr, rate) :: r => rate * nth i gr 0 + ascent r i end.

(** After any history of evaluations with gradients of one size, output number [k] is the sum of
    rate times gradient up to [k]. *)
Theorem gradient_ascent n (h : list (list R * R)) :
  Forall (fun e => length (fst e) = n) h ->
  exists os g, ga_run ga_start h = Ok (os, g) /\ length os = length h /\
    forall k, (k < length h)%nat -> length (nth k os []) = n /\
      forall i, (i < n)%nat -> nth i (nth k os []) 0 = ascent (firstn (S k) h) i.
Proof.
  intros Hh.
  assert (G : forall h g, Forall (fun e => length (fst e) = n) h -> ga_init g = true -> length (ga_value g) = n ->
    exists os g', ga_run g h = Ok (os, g') /\ length os = length h /\
      forall k, (k < length h)%nat -> length (nth k os []) = n /\
        forall i, (i < n)%nat -> nth i (nth k os []) 0 = nth i (ga_value g) 0 + ascent (firstn (S k) h) i).
  { clear h Hh. induction h as [|[gr rate] h IH]; intros g Hh Hi Hl; cbn [ga_run].
    - exists [], g. repeat split; cbn in *; lia.
    - inversion Hh as [|? ? H1 H2]; subst. cbn [fst] in *. unfold ga_update. rewrite Hi.
      destruct (zipR_ok Rplus (ga_value g) (scaleR rate gr)) as (v & Ev & Lv & Nv).
      { unfold scaleR. rewrite map_length. congruence. }
      rewrite Ev. cbn [bind].
      destruct (IH (mkGA true v) H2 eq_refl) as (os & g' & E & L & P); [cbn; congruence|].
      rewrite E. cbn [bind]. exists (v :: os), g'. split; [reflexivity|]. split; [cbn; congruence|].
      intros [|k] Hk.
      + cbn [nth firstn ascent]. split; [congruence|]. intros i Hi'. rewrite Nv by congruence.
        unfold scaleR. rewrite nth_map0 by lia. ring.
      + cbn [length] in Hk. destruct (P k ltac:(lia)) as [P1 P2]. split; [exact P1|].
        intros i Hi'. change (nth (S k) (v :: os) []) with (nth k os []). rewrite P2 by exact Hi'.
        cbn [ga_value]. rewrite Nv by congruence. unfold scaleR. rewrite nth_map0 by lia.
        change (firstn (S (S k)) ((gr, rate) :: h)) with ((gr, rate) :: firstn (S k) h). cbn [ascent]. ring. }
  destruct h as [|[gr rate] h].
  { exists [], ga_start. cbn. repeat split; lia. }
  inversion Hh as [|? ? H1 H2]; subst. cbn [fst] in *.
  destruct (G ((gr, rate) :: h) (mkGA true (map (fun _ => 0) gr)) Hh eq_refl) as (os & g' & E & L & P).
  { cbn. apply map_length. }
  exists os, g'. split; [exact E|]. split; [exact L|]. intros k Hk. destruct (P k Hk) as [P1 P2].
  split; [exact P1|]. intros i Hi. rewrite P2 by exact Hi. cbn [ga_value]. rewrite nth_map0 by exact Hi. ring.
Qed.

(** The size is fixed by the first evaluation: another size is not defined. *)
Theorem gradient_ascent_size_refuted g1 g2 r1 r2 : length g1 <> length g2 ->
  ga_run ga_start [(g1, r1); (g2, r2)] = UB.
Proof.
  intros H. cbn [ga_run]. unfold ga_update at 1. cbn [ga_init ga_start ga_value].
  destruct (zipR_ok Rplus (map (fun _ => 0) g1) (scaleR r1 g1)) as (v & E & L & _).
  { unfold scaleR. now rewrite !map_length. }
  rewrite E. cbn [bind]. unfold ga_update. cbn [ga_init ga_value]. unfold zipR.
  destruct (Nat.eqb_spec (length v) (length (scaleR r2 g2))) as [X|_]; [|reflexivity].
  unfold scaleR in X. rewrite !map_length in *. congruence.
Qed.

Example gradient_ascent_example : exists os g,
  ga_run ga_start [([1; 2], 3); ([4; 5], 1 / 2)] = Ok (os, g) /\ nth 1 (nth 1 os []) 0 = 17 / 2.
Proof.
  destruct (gradient_ascent 2 [([1; 2], 3); ([4; 5], 1 / 2)]) as (os & g & E & _ & P).
  { repeat constructor. }
  exists os, g. split; [exact E|]. destruct (P 1%nat) as [_ Q]; [cbn; lia|]. rewrite Q by lia. cbn. lra.
Qed.

(** ** C80: MotionPeriod *)
(** The wave a coefficient describes at time [t]. *)
Definition wave (p : mparam) (t : Z) : R :=
  let phase := 2 * PI * (IZR (t - p_initPeriod p) / IZR (p_period p)) in
  p_initAmplitude p +
  match p_type p with
  | MOTION_CONSTANT => p_amplitude p
  | MOTION_SIN => p_amplitude p * sin phase
  | MOTION_COS => p_amplitude p * cos phase
  end.

(** Ranges of C++ ints and unsigned ints. *)
Definition is_int (t : Z) : Prop := (- 2 ^ 31 <= t < 2 ^ 31)%Z.
Definition is_uint (t : Z) : Prop := (0 <= t < 2 ^ 32)%Z.

Lemma shift_period (f : R -> R) x k : (forall y n, f (y + 2 * INR n * PI) = f y) -> (0 <= k)%Z ->
  f (2 * PI * (x + IZR k)) = f (2 * PI * x).
Proof.
  intros H Hk. rewrite <- (Z2Nat.id k Hk), <- INR_IZR_INZ.
  rewrite <- (H (2 * PI * x) (Z.to_nat k)). f_equal. ring.
Qed.

Lemma mp_value_wave p t : (0 < p_period p)%Z -> is_int t -> is_uint (p_initPeriod p) ->
  (p_initPeriod p <= t)%Z -> mp_value p t = Ok (wave p t).
Proof.
  intros Hp Ht Hi Hge. unfold mp_value, wave, is_int, is_uint in *.
  destruct (Z.eqb_spec (p_period p) 0) as [X|_]; [lia|].
  rewrite (Z.mod_small (t - p_initPeriod p)) by lia.
  set (d := (t - p_initPeriod p)%Z). set (T := p_period p) in *.
  assert (E : IZR d / IZR T = IZR (d mod T) / IZR T + IZR (d / T)).
  { rewrite (Z.div_mod d T) at 1 by lia. rewrite plus_IZR, mult_IZR. field.
    apply not_0_IZR. lia. }
  rewrite E. assert (Hk : (0 <= d / T)%Z) by (apply Z.div_pos; lia). f_equal.
  replace (PI * 2 * (IZR (d mod T) / IZR T)) with (2 * PI * (IZR (d mod T) / IZR T)) by ring.
  destruct (p_type p); [ring| |].
  - rewrite (shift_period sin) by (exact Hk || (intros; apply sin_period)). ring.
  - rewrite (shift_period cos) by (exact Hk || (intros; apply cos_period)). ring.
Qed.

(** From the start of the motions on, each coefficient of the output is
    its wave. Missing: times before the start of the motion, where the
    subtraction wraps, and a null period. *)
Theorem motion_period_partial ps t :
  is_int t -> Forall (fun p => (0 < p_period p)%Z /\ is_uint (p_initPeriod p) /\ (p_initPeriod p <= t)%Z) ps ->
  mp_motion ps t = Ok (map (fun p => wave p t) ps).
Proof.
  intros Ht Hf. unfold mp_motion.
  match goal with |- context [ofor_range 0 ?hi ?b ?s0] =>
    destruct (ofor_range_ind (fun k r => length r = length ps /\
       forall i, (i < k)%nat -> nth i r 0 = nth i (map (fun p => wave p t) ps) 0) 0 hi b s0) as (r & E & L & P) end.
  - lia.
  - rewrite repeat_length. split; [reflexivity|lia].
  - intros i r Hi (L & P).
    rewrite (vget_ok ps i (mkMP MOTION_CONSTANT 1 0 0 0)) by lia. cbn [bind].
    set (p := nth i ps _). assert (Hp : In p ps) by (apply nth_In; lia).
    rewrite Forall_forall in Hf. destruct (Hf p Hp) as (A & B & C).
    rewrite mp_value_wave by assumption. cbn [bind].
    unfold vset. destruct (Nat.ltb_spec i (length r)); [|lia]. eexists; split; [reflexivity|].
    rewrite upd_length. split; [exact L|]. intros j Hj. rewrite nth_upd.
    destruct (Nat.eqb_spec i j) as [<-|N].
    + destruct (Nat.ltb_spec i (length r)); [|lia]. cbn.
      rewrite (nth_indep _ 0 (wave (mkMP MOTION_CONSTANT 1 0 0 0) t)) by (rewrite map_length; lia).
      rewrite (map_nth (fun p => wave p t)). reflexivity.
    + cbn. apply P. lia.
  - rewrite E. f_equal. apply (list_eq_nth 0); [now rewrite map_length|]. intros i Hi. apply P. lia.
Qed.

(** Each coefficient repeats after its period and stays within its amplitude. *)
Theorem motion_period_repeats p t : (0 < p_period p)%Z ->
  wave p (t + p_period p) = wave p t /\
  (p_type p = MOTION_CONSTANT \/ Rabs (wave p t - p_initAmplitude p) <= Rabs (p_amplitude p)).
Proof.
  intros Hp. unfold wave. assert (HT : IZR (p_period p) <> 0) by (apply not_0_IZR; lia). split.
  - replace (t + p_period p - p_initPeriod p)%Z with (t - p_initPeriod p + p_period p)%Z by lia.
    rewrite plus_IZR.
    replace ((IZR (t - p_initPeriod p) + IZR (p_period p)) / IZR (p_period p))
      with (IZR (t - p_initPeriod p) / IZR (p_period p) + IZR 1) by (field; exact HT).
    destruct (p_type p); [reflexivity| |].
    + rewrite (shift_period sin) by (lia || (intros; apply sin_period)). reflexivity.
    + rewrite (shift_period cos) by (lia || (intros; apply cos_period)). reflexivity.
  - destruct (p_type p); [left; reflexivity| |]; right.
    + match goal with |- context [sin ?x] => pose proof (SIN_bound x) as B; generalize dependent (sin x) end.
      intros s B. replace (_ - _) with (p_amplitude p * s) by ring. rewrite Rabs_mult.
      pose proof (Rabs_pos (p_amplitude p)). assert (Rabs s <= 1) by (apply Rabs_le; lra). nra.
    + match goal with |- context [cos ?x] => pose proof (COS_bound x) as B; generalize dependent (cos x) end.
      intros s B. replace (_ - _) with (p_amplitude p * s) by ring. rewrite Rabs_mult.
      pose proof (Rabs_pos (p_amplitude p)). assert (Rabs s <= 1) by (apply Rabs_le; lra). nra.
Qed.

(** A null period is an integer division by zero. *)
(** After a resize every coefficient is 0 at every time, whatever the parameters were before. *)
Theorem motion_period_resized n t : is_int t -> (0 <= t)%Z -> mp_motion (mp_resize n) t = Ok (repeat 0 n).
Proof.
  intros Ht H0. rewrite motion_period_partial.
  - f_equal. unfold mp_resize. induction n; [reflexivity|]. cbn [repeat map]. rewrite IHn. f_equal.
    unfold wave. cbn. lra.
  - exact Ht.
  - unfold mp_resize. apply Forall_forall. intros p Hp. apply repeat_spec in Hp as ->. cbn [p_period p_initPeriod].
    split; [lia|]. split; [unfold is_uint; lia|exact H0].
Qed.

Theorem motion_null_period p t : p_period p = 0%Z -> mp_value p t = UB.
Proof. intros H. unfold mp_value. rewrite H. reflexivity. Qed.

(** Before the start the subtraction wraps around: the coefficient is not on its wave (period 4,
    sine, one tick before the start would be -1; with a period of 3 the value is another one). *)
Theorem motion_before_start_refuted : exists p t x,
  (0 < p_period p)%Z /\ is_int t /\ is_uint (p_initPeriod p) /\ mp_value p t = Ok x /\ x <> wave p t.
Proof.
  exists (mkMP MOTION_COS 3 1 1 0), 0%Z. eexists. split; [cbn; lia|]. split; [unfold is_int; lia|].
  split; [unfold is_uint; cbn; lia|]. split; [reflexivity|].
  unfold mp_value, wave. cbn [p_type p_period p_initPeriod p_amplitude p_initAmplitude].
  replace ((0 - 1) mod 2 ^ 32 mod 3)%Z with 0%Z by reflexivity.
  replace (PI * 2 * (0 / 3)) with 0 by field. rewrite cos_0.
  replace (2 * PI * (IZR (0 - 1) / 3)) with (- (2 * (PI / 3))) by (simpl; field).
  rewrite cos_neg. rewrite cos_2a_cos, cos_PI3. lra.
Qed.

Example motion_period_example :
  mp_motion [mkMP MOTION_SIN 4 2 3 1] 7 = Ok [4].
Proof.
  rewrite motion_period_partial; [|unfold is_int; lia|repeat constructor; unfold is_uint; cbn; lia].
  cbn [map]. do 2 f_equal. unfold wave. cbn [p_type p_period p_initPeriod p_amplitude p_initAmplitude].
  replace (2 * PI * (IZR (7 - 2) / 4)) with (PI / 2 + 2 * INR 1 * PI) by (simpl; field).
  rewrite sin_period, sin_PI2. ring.
Qed.

(** ** C81: NeckLimitation *)
(** The highest tilt allowed at a given pan, up to the orientation of the tilt axis. *)
Definition tilt_max (n : neck) (pan : R) : R := n_affine n + n_linear n * Rabs pan.

(** With the tilt axis pointing down (sign 1, the default): the pan and
    every other joint are untouched; an admissible tilt is untouched; out
    of a band of 1e-3 around pan 0 a tilt beyond the limit is brought to
    the limit, in the band it is brought to the limit of pan 0. Missing:
    sign -1; false of the code there. *)
Theorem neck_limitation_partial n joint :
  n_sign n = 1 -> n_pan n <> n_tilt n -> (n_pan n < length joint)%nat -> (n_tilt n < length joint)%nat ->
  exists out, neck_limit n joint = Ok out /\ length out = length joint /\
    (forall i, i <> n_tilt n -> nth i out 0 = nth i joint 0) /\
    let pan := nth (n_pan n) joint 0 in
    let tilt := nth (n_tilt n) joint 0 in
    let lim := if Rlt_dec (Rabs pan) (1 / 1000) then tilt_max n 0 else tilt_max n pan in
    nth (n_tilt n) out 0 = Rmin tilt lim.
Proof.
  intros Hs Hd Hp Ht. unfold neck_limit.
  rewrite (vget_ok joint (n_pan n) 0 Hp), (vget_ok joint (n_tilt n) 0 Ht). cbn [bind].
  set (pan := nth (n_pan n) joint 0). set (tilt := nth (n_tilt n) joint 0). rewrite Hs.
  match goal with |- context [vset joint (n_tilt n) ?x] => set (t' := x) end.
  unfold vset. destruct (Nat.ltb_spec (n_tilt n) (length joint)) as [_|]; [|lia]. cbn [bind].
  rewrite upd_length. destruct (Nat.ltb_spec (n_pan n) (length joint)) as [_|]; [|lia].
  eexists. split; [reflexivity|]. rewrite !upd_length. split; [reflexivity|]. split.
  - intros i Hi. rewrite !nth_upd, !upd_length.
    destruct (Nat.eqb_spec (n_pan n) i) as [<-|_].
    + destruct (Nat.ltb_spec (n_pan n) (length joint)) as [_|]; [reflexivity|lia].
    + cbn. destruct (Nat.eqb_spec (n_tilt n) i); [congruence|]. reflexivity.
  - cbv zeta. rewrite !nth_upd, !upd_length.
    destruct (Nat.eqb_spec (n_pan n) (n_tilt n)); [congruence|]. cbn [andb].
    rewrite Nat.eqb_refl. destruct (Nat.ltb_spec (n_tilt n) (length joint)) as [_|]; [|lia]. cbn [andb].
    unfold t', tilt_max. rewrite Rabs_R0.
    destruct (Rltb_spec (Rabs pan) (1 / 1000)) as [A|A]; destruct (Rlt_dec (Rabs pan) (1 / 1000)) as [A'|A']; try lra.
    + destruct (Rltb_spec (n_affine n) (tilt * 1)); [rewrite Rmin_right|rewrite Rmin_left]; lra.
    + destruct (Rltb_spec 0 pan) as [B|B].
      * rewrite (Rabs_right pan) by lra.
        destruct (Rltb_spec (pan * n_linear n + n_affine n) (1 * tilt)); [rewrite Rmin_right|rewrite Rmin_left]; lra.
      * rewrite (Rabs_left1 pan) by lra.
        destruct (Rltb_spec (- pan * n_linear n + n_affine n) (tilt * 1)); [rewrite Rmin_right|rewrite Rmin_left]; lra.
Qed.

(** With the tilt axis pointing up (sign -1) the limited tilt is on the wrong side of zero: the
    joint is sent to the opposite of the limit, so the head jumps instead of stopping. *)
Theorem neck_sign_refuted : exists n joint out,
  n_sign n = -1 /\ neck_limit n joint = Ok out /\
  tilt_max n (nth (n_pan n) joint 0) < n_sign n * nth (n_tilt n) joint 0 /\
  n_sign n * nth (n_tilt n) out 0 <> tilt_max n (nth (n_pan n) joint 0) /\
  nth (n_tilt n) joint 0 < 0 < nth (n_tilt n) out 0.
Proof.
  exists (mkNeck 0 1 (-1) 3 (-1)), [1; -5]. eexists.
  unfold neck_limit, tilt_max. cbn.
  destruct (Rltb_spec (Rabs 1) (1 / 1000)) as [X|_]; [rewrite Rabs_R1 in X; lra|].
  destruct (Rltb_spec 0 1) as [_|X]; [|lra].
  destruct (Rltb_spec (1 * -1 + 3) (-1 * -5)) as [_|X]; [|lra].
  rewrite Rabs_R1. split; [reflexivity|]. split; [reflexivity|]. cbn. lra.
Qed.

Example neck_example : exists out,
  neck_limit (mkNeck 0 1 (-1) 3 1) [-1; 5; 7] = Ok out /\ nth 1 out 0 = 2 /\ nth 2 out 0 = 7.
Proof.
  destruct (neck_limitation_partial (mkNeck 0 1 (-1) 3 1) [-1; 5; 7]) as (out & E & _ & P & Q);
    [reflexivity|cbn; lia|cbn; lia|cbn; lia|].
  exists out. split; [exact E|]. split; [|apply P; cbn; lia]. cbn in Q. rewrite Q. unfold tilt_max. cbn.
  assert (Ab : Rabs (-1) = 1) by (rewrite Rabs_left; lra). rewrite Ab.
  destruct (Rlt_dec 1 (1 / 1000)); [lra|]. rewrite Rmin_right; lra.
Qed.

(** ** C82: control laws *)
(** Proportional-derivative control is defined exactly when the six vectors have one size; the two
    error signals are the ones used by the control. *)
Theorem pd_control_law kp kd pos dpos vel dvel :
  let n := length kp in
  (length kd = n /\ length pos = n /\ length dpos = n /\ length vel = n /\ length dvel = n ->
   exists tau pe ve, pd_control kp kd pos dpos vel dvel = Ok (tau, pe, ve) /\
     length tau = n /\ length pe = n /\ length ve = n /\
     forall i, (i < n)%nat ->
       nth i pe 0 = nth i dpos 0 - nth i pos 0 /\ nth i ve 0 = nth i dvel 0 - nth i vel 0 /\
       nth i tau 0 = nth i kp 0 * (nth i dpos 0 - nth i pos 0) + nth i kd 0 * (nth i dvel 0 - nth i vel 0)) /\
  (is_ok (pd_control kp kd pos dpos vel dvel) = true ->
   length kd = n /\ length pos = n /\ length dpos = n /\ length vel = n /\ length dvel = n).
Proof.
  cbv zeta. split.
  - intros (A & B & C & D & E). unfold pd_control.
    destruct (zipR_ok Rminus dpos pos) as (pe & -> & L1 & N1); [congruence|]. cbn [bind].
    destruct (zipR_ok Rminus dvel vel) as (ve & -> & L2 & N2); [congruence|]. cbn [bind].
    destruct (zipR_ok Rmult pe kp) as (a & -> & L3 & N3); [congruence|]. cbn [bind].
    destruct (zipR_ok Rmult ve kd) as (b & -> & L4 & N4); [congruence|]. cbn [bind].
    destruct (zipR_ok Rplus a b) as (tau & -> & L5 & N5); [congruence|]. cbn [bind].
    exists tau, pe, ve. split; [reflexivity|]. repeat split; try congruence.
    + apply N1; congruence.
    + apply N2; congruence.
    + rewrite N5, N3, N4, N1, N2 by congruence. ring.
  - unfold pd_control.
    destruct (zipR Rminus dpos pos) as [pe| |] eqn:E1; cbn [bind]; try discriminate.
    destruct (zipR Rminus dvel vel) as [ve| |] eqn:E2; cbn [bind]; try discriminate.
    destruct (zipR Rmult pe kp) as [a| |] eqn:E3; cbn [bind]; try discriminate.
    destruct (zipR Rmult ve kd) as [b| |] eqn:E4; cbn [bind]; try discriminate.
    destruct (zipR Rplus a b) as [tau| |] eqn:E5; cbn [bind]; try discriminate. intros _.
    assert (Len : forall f x y r, zipR f x y = Ok r -> length x = length y /\ length r = length x).
    { intros f x y r H. pose proof (zipR_inv _ _ _ _ H) as X. split; [exact X|].
      destruct (zipR_ok f x y X) as (r' & E & L & _). congruence. }
    apply Len in E1, E2, E3, E4, E5. repeat split; lia.
Qed.

(** Torque with gravity compensation: the mass matrix times the acceleration, plus gravity. *)
Theorem gr_control_law A acc gravity :
  Forall (fun r => length r = length acc) A -> length gravity = length A ->
  exists tau, gr_control A acc gravity = Ok tau /\ length tau = length A /\
    forall i, (i < length A)%nat -> nth i tau 0 = dotR (nth i A []) acc + nth i gravity 0.
Proof.
  intros HA Hg. unfold gr_control.
  replace (forallb _ A) with true.
  2: { symmetry. apply forallb_forall. intros r Hr. rewrite Forall_forall in HA. rewrite (HA r Hr). apply Nat.eqb_refl. }
  destruct (zipR_ok Rplus (map (fun r => dotR r acc) A) gravity) as (tau & E & L & N).
  { rewrite map_length. congruence. }
  rewrite map_length in *. exists tau. split; [exact E|]. split; [exact L|]. intros i Hi. rewrite N by exact Hi.
  f_equal. rewrite (nth_indep _ 0 (dotR [] acc)) by (rewrite map_length; exact Hi). apply (map_nth (fun r => dotR r acc)).
Qed.

(** Sizes that do not fit are not tested: the product or the sum is undefined. *)
Theorem gr_control_sizes_undefined A acc gravity :
  ~ (Forall (fun r => length r = length acc) A /\ length gravity = length A) -> gr_control A acc gravity = UB.
Proof.
  intros H. unfold gr_control. destruct (forallb _ A) eqn:F; [|reflexivity].
  assert (L : length gravity <> length A).
  { intros L. apply H. split; [|exact L]. apply Forall_forall. intros r Hr. rewrite forallb_forall in F.
    apply Nat.eqb_eq, F, Hr. }
  unfold zipR. rewrite map_length. destruct (Nat.eqb_spec (length A) (length gravity)); [congruence|reflexivity].
Qed.

(** The binary conversion gives 0 for negative integers and 1 for all others (0 included). *)
Theorem binary_int x : (binary_int_to_uint x = 0 <-> x < 0)%Z /\ (binary_int_to_uint x = 1 <-> 0 <= x)%Z.
Proof. unfold binary_int_to_uint. destruct (Z.ltb_spec x 0); split; split; lia. Qed.

Example pd_example : exists t p v, pd_control [2; 3] [1; 1] [0; 0] [1; 1] [0; 0] [5; 7] = Ok (t, p, v) /\ nth 1 t 0 = 10.
Proof.
  destruct (pd_control_law [2; 3] [1; 1] [0; 0] [1; 1] [0; 0] [5; 7]) as [(t & p & v & E & _ & _ & _ & P) _];
    [repeat split|]. exists t, p, v. split; [exact E|]. destruct (P 1%nat) as (_ & _ & Q); [cbn; lia|].
  cbn in Q. rewrite Q. lra.
Qed.

Example gr_example : gr_control [[1; 2]; [3; 4]] [5; 6] [100; 200] = Ok [1 * 5 + (2 * 6 + 0) + 100; 3 * 5 + (4 * 6 + 0) + 200].
Proof. reflexivity. Qed.

Print Assumptions gradient_ascent.
Print Assumptions motion_period_partial.
Print Assumptions motion_period_repeats.
Print Assumptions motion_before_start_refuted.
Print Assumptions neck_limitation_partial.
Print Assumptions neck_sign_refuted.
Print Assumptions pd_control_law.
Print Assumptions gr_control_law.
Print Assumptions motion_period_resized.
Print Assumptions gr_control_sizes_undefined.
