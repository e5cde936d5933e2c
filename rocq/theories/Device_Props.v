(** Theorems about the device (properties C31-C34, C74, C75). *)
From Coq Require Import String Ascii List Arith Lia ZArith Bool Reals Lra SpecFloat.
From Verif Require Import Base Device_Model Device_Proofs.
Import ListNotations.
Local Open Scope nat_scope.
Local Open Scope list_scope.

(** ** C33: sizes *)
Section Sizes.
Context {num : Type}.
Variables zero half : num.
Variables add mul : num -> num -> num.
Variable ltb : num -> num -> bool.
Variable isnan : num -> bool.
Variable ffint : list num -> list num -> num -> num * num * num * num * num * num.
Notation dexec := (dexec num zero half add mul ltb isnan ffint).
Notation dsend := (dsend num zero half add mul ltb isnan ffint).
Notation drun := (drun num zero half add mul ltb isnan ffint).
Notation increment := (increment num half add mul ltb isnan ffint).
Notation dev_init := (dev_init num zero).

(** Everything but the six bound vectors. *)
Definition same_but_bounds (d d' : device num) : Prop :=
  state d' = state d /\ velocity d' = velocity d /\ velControl d' = velControl d /\
  sanity d' = sanity d /\ ctype d' = ctype d /\ stateOut d' = stateOut d /\ velOut d' = velOut d.

(** Bounds are accepted exactly when both have the size of what they bound. *)
Theorem bounds_setters (d : device num) (l u : list num) :
  (if (length l =? length (state d)) && (length u =? length (state d)) then
     exists d', dexec d (DPosB l u) = Ok d' /\ loP d' = l /\ upP d' = u /\ same_but_bounds d d' /\
       loV d' = loV d /\ upV d' = upV d /\ loT d' = loT d /\ upT d' = upT d
   else dexec d (DPosB l u) = Throw "invalid_argument") /\
  (if (length l =? length (velocity d)) && (length u =? length (velocity d)) then
     exists d', dexec d (DVelB l u) = Ok d' /\ loV d' = l /\ upV d' = u /\ same_but_bounds d d' /\
       loP d' = loP d /\ upP d' = upP d /\ loT d' = loT d /\ upT d' = upT d
   else dexec d (DVelB l u) = Throw "invalid_argument") /\
  (if (length l =? length (state d)) && (length u =? length (state d)) then
     exists d', dexec d (DTorB l u) = Ok d' /\ loT d' = l /\ upT d' = u /\ same_but_bounds d d' /\
       loP d' = loP d /\ upP d' = upP d /\ loV d' = loV d /\ upV d' = upV d
   else dexec d (DTorB l u) = Throw "invalid_argument").
Proof.
  cbn [Device_Model.dexec]. unfold setPositionBounds, setVelocityBounds, setTorqueBounds, same_but_bounds.
  repeat split;
    destruct (length l =? _), (length u =? _); cbn [negb andb]; try reflexivity;
    eexists; (split; [reflexivity|]); cbn; repeat split.
Qed.

(** Checks can be enabled exactly when the bounds needed in the current mode have the size of
    the state; they can always be disabled. *)
Definition needed_bounds (d : device num) : list (list num) :=
  match ctype d with
  | NoInteg => [loP d; upP d]
  | OneInteg => [loP d; upP d; loV d; upV d]
  | TwoInteg => [loP d; upP d; loV d; upV d; loT d; upT d]
  end.

Theorem sanity_setter (d : device num) :
  (forall b, dexec d (DSanity b) = Throw "invalid_argument" \/
     exists d', dexec d (DSanity b) = Ok d' /\ sanity d' = b /\ state d' = state d /\ velocity d' = velocity d /\
       ctype d' = ctype d /\ needed_bounds d' = needed_bounds d) /\
  is_ok (dexec d (DSanity false)) = true /\
  (is_ok (dexec d (DSanity true)) = true <->
   forall b, In b (needed_bounds d) -> length b = length (state d)).
Proof.
  cbn [Device_Model.dexec]. unfold setSanityCheck, needed_bounds, sizes_ok. split; [|split].
  - intros b. destruct (if b then _ else _).
    + right. eexists. split; [reflexivity|]. cbn. repeat split.
    + left. reflexivity.
  - reflexivity.
  - split.
    + intros H b Hb. destruct (ctype d); cbn [In] in Hb;
        repeat match type of H with context [?x =? ?y] => destruct (Nat.eqb_spec x y); cbn in H end;
        try discriminate; intuition (subst; auto).
    + intros H. destruct (ctype d); cbn [In] in H;
        repeat match goal with |- context [?x =? length ?y] =>
          rewrite (H y) by tauto; rewrite Nat.eqb_refl; cbn [andb] end; reflexivity.
Qed.

(** A new state is stored as it is; with the checks on it is accepted exactly when it has the size of
    the velocity bounds (and of the torque bounds in second order mode).  The position bounds are
    never consulted (device.cpp:241-285). *)
Definition state_bounds (d : device num) : list (list num) :=
  match ctype d with
  | NoInteg => []
  | OneInteg => [loV d; upV d]
  | TwoInteg => [loV d; upV d; loT d; upT d]
  end.

Theorem state_setter (d : device num) (st : list num) :
  (dexec d (DSet st) = Throw "invalid_argument" \/
   exists d', dexec d (DSet st) = Ok d' /\ state d' = st /\ velocity d' = velocity d /\
     sanity d' = sanity d /\ ctype d' = ctype d /\ stateOut d' = st /\ velOut d' = velOut d /\
     needed_bounds d' = needed_bounds d) /\
  (is_ok (dexec d (DSet st)) = true <->
   sanity d = false \/ forall b, In b (state_bounds d) -> length b = length st).
Proof.
  cbn [Device_Model.dexec]. unfold setState, state_bounds, needed_bounds, sizes_ok. split.
  - destruct (if sanity d then _ else _).
    + right. eexists. split; [reflexivity|]. cbn. repeat split.
    + left. reflexivity.
  - destruct (sanity d); [|split; [intros _; now left | reflexivity]]. split.
    + intros H. right. intros b Hb. destruct (ctype d); cbn [In] in Hb;
        repeat match type of H with context [?x =? ?y] => destruct (Nat.eqb_spec x y); cbn in H end;
        try discriminate; intuition (subst; auto).
    + intros [H|H]; [discriminate H|]. destruct (ctype d); cbn [In] in H;
        repeat match goal with |- context [?x =? length ?y] =>
          rewrite (H y) by tauto; rewrite Nat.eqb_refl; cbn [andb] end; reflexivity.
Qed.

(** A new velocity is stored as it is, whatever its size, and nothing else changes. *)
Theorem velocity_setter (d : device num) (v : list num) :
  exists d', dexec d (DSetVelocity v) = Ok d' /\ velocity d' = v /\ velOut d' = v /\ state d' = state d /\
    stateOut d' = stateOut d /\ velControl d' = velControl d /\
    sanity d' = sanity d /\ ctype d' = ctype d /\ needed_bounds d' = needed_bounds d.
Proof. eexists. split; [reflexivity|]. unfold needed_bounds. cbn. repeat split. Qed.

(** The mode is the one named by the last command that names a mode, first order on a new device;
    any other word given as input type is ignored.  Going to second order or to no integration with
    the dedicated commands also clears the velocity (switching by name does not). *)
Definition mode_named (m : cmode) (c : dcmd num) : cmode :=
  match c with
  | DSecondOrder => TwoInteg
  | DNoIntegration => NoInteg
  | DInput w =>
      if string_dec w "noInteg" then NoInteg
      else if string_dec w "oneInteg" then OneInteg
      else if string_dec w "twoInteg" then TwoInteg else m
  | _ => m
  end.

Lemma integrate_ctype (d a : device num) u dt :
  integrate num half add mul ltb isnan ffint d u dt = Ok a -> ctype a = ctype d.
Proof.
  unfold integrate. destruct (sanity d && existsb isnan u); [now intros [= <-]|].
  destruct (ctype d) eqn:Ec.
  - destruct (set_tail _ _ _); cbn [bind]; try discriminate. now intros [= <-].
  - cbn [bind]. destruct (check_if _ _ _ _ _ _); cbn [bind]; try discriminate.
    destruct (integrate_position _ _ _ _ _ _ _); cbn [bind]; try discriminate.
    destruct (check_if _ _ _ _ _ _); cbn [bind]; try discriminate. now intros [= <-].
  - destruct (Device_Model.tail _ _ _); cbn [bind]; try discriminate.
    destruct (set_tail _ _ _); cbn [bind]; try discriminate.
    destruct (check_if _ _ _ _ _ _); cbn [bind]; try discriminate.
    destruct (integrate_position _ _ _ _ _ _ _); cbn [bind]; try discriminate.
    destruct (check_if _ _ _ _ _ _); cbn [bind]; try discriminate. now intros [= <-].
Qed.

Theorem device_mode (cs : list (dcmd num)) (d d' : device num) :
  drun cs d = Ok d' -> ctype d' = fold_left mode_named cs (ctype d).
Proof.
  revert d; induction cs as [|c cs IH]; intros d; cbn [fold_left].
  - unfold Device_Model.drun; cbn. now intros [= ->].
  - unfold Device_Model.drun; cbn [ofold]. destruct (dsend d c) as [d1| |] eqn:E; cbn [bind]; try discriminate.
    intros R. rewrite (IH d1 R). f_equal.
    revert E. unfold Device_Model.dsend. destruct c; cbn [Device_Model.dexec mode_named].
    + unfold setStateSize. now intros [= <-].
    + unfold setState. destruct (if sanity d then _ else _); now intros [= <-].
    + now intros [= <-].
    + now intros [= <-].
    + now intros [= <-].
    + unfold setControlInputType.
      repeat match goal with |- context [String.eqb ?a ?b] => destruct (String.eqb_spec a b) end;
        repeat match goal with |- context [string_dec ?a ?b] => destruct (string_dec a b) end;
        try congruence; now intros [= <-].
    + unfold setSanityCheck. destruct (if b then _ else _); now intros [= <-].
    + unfold setPositionBounds. repeat match goal with |- context [if ?c then _ else _] => destruct c end; now intros [= <-].
    + unfold setVelocityBounds. repeat match goal with |- context [if ?c then _ else _] => destruct c end; now intros [= <-].
    + unfold setTorqueBounds. repeat match goal with |- context [if ?c then _ else _] => destruct c end; now intros [= <-].
    + unfold Device_Model.increment. destruct (integrate _ _ _ _ _ _ _ _ _ _) as [a| |] eqn:Ea; cbn [bind];
        intros [= <-]; [|reflexivity]. cbn. exact (integrate_ctype _ _ _ _ Ea).
Qed.

Theorem device_mode_commands (d : device num) :
  (exists d', dexec d DSecondOrder = Ok d' /\ ctype d' = TwoInteg /\ state d' = state d /\
     velocity d' = repeat zero (length (state d))) /\
  (exists d', dexec d DNoIntegration = Ok d' /\ ctype d' = NoInteg /\ state d' = state d /\
     velocity d' = repeat zero (length (state d))) /\
  forall w, exists d', dexec d (DInput w) = Ok d' /\ state d' = state d /\ velocity d' = velocity d.
Proof.
  split; [|split].
  1,2: eexists; split; [reflexivity|]; repeat split.
  intros w. eexists. split; [reflexivity|].
  repeat match goal with |- context [String.eqb ?a ?b] => destruct (String.eqb a b) end; split; reflexivity.
Qed.

(** Over any history from a new device: a lower bound has the size of its upper bound, and the
    state signal shows the state. *)
Definition paired (d : device num) : Prop :=
  length (loP d) = length (upP d) /\ length (loV d) = length (upV d) /\
  length (loT d) = length (upT d) /\ stateOut d = state d.

Lemma paired_increment d u dt d' : paired d -> increment d u dt = Ok d' -> paired d'.
Proof.
  intros (A & B & C & D) H. unfold Device_Model.increment in H.
  destruct (integrate _ _ _ _ _ _ _ d u dt) as [d1| |] eqn:E; try discriminate.
  cbn [bind] in H. inversion H as [E2]. clear H. unfold paired. cbn.
  assert (G : loP d1 = loP d /\ upP d1 = upP d /\ loV d1 = loV d /\ upV d1 = upV d /\
              loT d1 = loT d /\ upT d1 = upT d).
  { unfold integrate in E. destruct (sanity d && existsb isnan u); [inversion E; repeat split|].
    destruct (ctype d).
    - destruct (set_tail num (state d) u); try discriminate. cbn in E. inversion E. repeat split.
    - cbn [bind] in E. destruct (check_if _ _ _ (velocity d) _ _); try discriminate. cbn [bind] in E.
      destruct (integrate_position _ _ _ _ _ _ _); try discriminate. cbn [bind] in E.
      destruct (check_if _ _ _ _ _ _); try discriminate. cbn in E. inversion E. repeat split.
    - destruct (tail _ _ _); try discriminate. cbn [bind] in E.
      destruct (set_tail _ _ _); try discriminate. cbn [bind] in E.
      destruct (check_if _ _ _ _ (loV d) _); try discriminate. cbn [bind] in E.
      destruct (integrate_position _ _ _ _ _ _ _); try discriminate. cbn [bind] in E.
      destruct (check_if _ _ _ _ _ _); try discriminate. cbn in E. inversion E. repeat split. }
  destruct G as (-> & -> & -> & -> & -> & ->). auto.
Qed.

Lemma paired_send d c d' : paired d -> dsend d c = Ok d' -> paired d'.
Proof.
  intros P H. unfold Device_Model.dsend in H.
  destruct (dexec d c) as [d1|w|] eqn:E; try discriminate; inversion H; subst; auto. clear H.
  pose proof P as (A & B & C & D).
  destruct c; cbn [Device_Model.dexec] in E.
  - inversion E; cbn; unfold paired; cbn; auto.
  - unfold setState in E. destruct (if sanity d then _ else _); inversion E. unfold paired; cbn; auto.
  - inversion E; unfold paired; cbn; auto.
  - inversion E; unfold paired; cbn; auto.
  - inversion E; unfold paired; cbn; auto.
  - unfold setControlInputType in E. inversion E.
    destruct (String.eqb s "noInteg"); [unfold paired; cbn; auto|].
    destruct (String.eqb s "oneInteg"); [unfold paired; cbn; auto|].
    destruct (String.eqb s "twoInteg"); unfold paired; cbn; auto.
  - unfold setSanityCheck in E. destruct (if b then _ else _); inversion E. unfold paired; cbn; auto.
  - unfold setPositionBounds in E.
    destruct (Nat.eqb_spec (length l) (length (state d))); [|discriminate].
    destruct (Nat.eqb_spec (length u) (length (state d))); [|discriminate].
    inversion E. unfold paired; cbn. repeat split; auto. congruence.
  - unfold setVelocityBounds in E.
    destruct (Nat.eqb_spec (length l) (length (velocity d))); [|discriminate].
    destruct (Nat.eqb_spec (length u) (length (velocity d))); [|discriminate].
    inversion E. unfold paired; cbn. repeat split; auto. congruence.
  - unfold setTorqueBounds in E.
    destruct (Nat.eqb_spec (length l) (length (state d))); [|discriminate].
    destruct (Nat.eqb_spec (length u) (length (state d))); [|discriminate].
    inversion E. unfold paired; cbn. repeat split; auto. congruence.
  - eapply paired_increment; eauto.
Qed.

Lemma drun_inv (P : device num -> Prop) (Q : dcmd num -> Prop) cs d d' :
  (forall d c d', Q c -> P d -> dsend d c = Ok d' -> P d') ->
  (forall c, In c cs -> Q c) -> P d -> drun cs d = Ok d' -> P d'.
Proof.
  intros HP. unfold Device_Model.drun. revert d. induction cs as [|c cs IH]; intros d HQ Hd H.
  - cbn in H. inversion H. subst. auto.
  - cbn [ofold] in H. destruct (dsend d c) as [d1| |] eqn:E; try discriminate. cbn [bind] in H.
    apply (IH d1); auto. { intros. apply HQ. right; auto. } apply (HP d c d1); auto. apply HQ. left; auto.
Qed.

Theorem device_bounds_paired (cs : list (dcmd num)) (d : device num) :
  drun cs dev_init = Ok d ->
  length (loP d) = length (upP d) /\ length (loV d) = length (upV d) /\
  length (loT d) = length (upT d) /\ stateOut d = state d.
Proof.
  intros H. apply (drun_inv paired (fun _ => True) cs dev_init d); auto.
  - intros. eapply paired_send; eauto.
  - repeat split.
Qed.

(** As long as no command changes the size of the robot, bounds that are set have the size of
    what they bound. *)
Definition keeps_size (n : nat) (c : dcmd num) : Prop :=
  match c with
  | DResize m => m = n
  | DSet s => length s = n
  | DSetVelocity v => length v = n
  | _ => True
  end.
Definition sized (n : nat) (d : device num) : Prop :=
  length (state d) = n /\ length (velocity d) = n /\
  forall b, In b [loP d; upP d; loV d; upV d; loT d; upT d] -> b = [] \/ length b = n.

Lemma sized_increment n d u dt d' : sized n d -> increment d u dt = Ok d' -> sized n d'.
Proof.
  intros (A & B & C) H. unfold Device_Model.increment in H.
  destruct (integrate _ _ _ _ _ _ _ d u dt) as [d1| |] eqn:E; try discriminate.
  cbn [bind] in H. inversion H as [E2]. clear H E2. unfold sized. cbn [state velocity loP upP loV upV loT upT].
  assert (ST : forall v t r, set_tail num v t = Ok r -> length r = length v).
  { intros v t r. unfold set_tail. destruct (Nat.leb_spec (length t) (length v)); [|discriminate].
    intros X; inversion X. rewrite app_length, firstn_length. lia. }
  assert (CI : forall b v l h r, check_if num ltb b v l h = Ok r -> length r = length v).
  { intros b v l h r. unfold check_if. destruct b; [|intros X; inversion X; reflexivity].
    revert l h r. induction v as [|x v IH]; intros l h r; cbn [check_bounds].
    - intros X; inversion X; reflexivity.
    - destruct l as [|y l]; [discriminate|]. destruct h as [|z h]; [discriminate|].
      destruct (check_bounds num ltb v l h) eqn:EE; try discriminate. cbn [bind].
      specialize (IH l h (map fst a)). rewrite EE in IH. specialize (IH eq_refl).
      intros X; inversion X. simpl. rewrite IH. reflexivity. }
  assert (IP : forall s vc r, integrate_position num add mul ffint s vc dt = Ok r -> length r = length s).
  { intros s vc r X.
    destruct (Nat.le_gt_cases (length vc) (length s)) as [L|L].
    - destruct (Nat.eq_dec (length vc) (length s)) as [E'|E'].
      + destruct (Nat.le_gt_cases 6 (length s)) as [L6|L6].
        * destruct (position_ok add mul ffint s vc dt L (fun _ => L6)) as (r' & E1 & E2 & _). congruence.
        * rewrite (position_ub add mul ffint s vc dt) in X by lia. discriminate.
      + destruct (position_ok add mul ffint s vc dt L ltac:(lia)) as (r' & E1 & E2 & _). congruence.
    - rewrite (position_ub add mul ffint s vc dt) in X by lia. discriminate. }
  unfold integrate in E. destruct (sanity d && existsb isnan u).
  - inversion E; subst; auto.
  - destruct (ctype d).
    + destruct (set_tail num (state d) u) as [s| |] eqn:E1; try discriminate. cbn in E. inversion E. cbn.
      apply ST in E1. split; [congruence|]. auto.
    + cbn [bind] in E. destruct (check_if _ _ _ (velocity d) _ _) eqn:E1; try discriminate. cbn [bind] in E.
      destruct (integrate_position _ _ _ _ _ _ _) eqn:E2; try discriminate. cbn [bind] in E.
      destruct (check_if _ _ _ a0 _ _) eqn:E3; try discriminate. cbn in E. inversion E.
      cbn [state velocity loP upP loV upV loT upT].
      apply CI in E1. apply CI in E3. apply IP in E2. split; [congruence|]. split; [congruence|]. auto.
    + destruct (tail _ _ _); try discriminate. cbn [bind] in E.
      destruct (set_tail _ _ _) eqn:E0; try discriminate. cbn [bind] in E.
      destruct (check_if _ _ _ _ (loV d) _) eqn:E1; try discriminate. cbn [bind] in E.
      destruct (integrate_position _ _ _ _ _ _ _) eqn:E2; try discriminate. cbn [bind] in E.
      destruct (check_if _ _ _ a2 _ _) eqn:E3; try discriminate. cbn in E. inversion E.
      cbn [state velocity loP upP loV upV loT upT].
      apply ST in E0. apply CI in E1. apply CI in E3. apply IP in E2.
      split; [congruence|]. split; [congruence|]. auto.
Qed.

Lemma sized_send n d c d' : keeps_size n c -> sized n d -> dsend d c = Ok d' -> sized n d'.
Proof.
  intros K P H. unfold Device_Model.dsend in H.
  destruct (dexec d c) as [d1|w|] eqn:E; try discriminate; inversion H; subst; auto. clear H.
  pose proof P as (A & B & C).
  destruct c; cbn [Device_Model.dexec keeps_size] in *.
  - inversion E; subst; unfold sized; cbn [state velocity loP upP loV upV loT upT with_velocity with_state].
    rewrite repeat_length. auto.
  - unfold setState in E. destruct (if sanity d then _ else _); inversion E. unfold sized; cbn; auto.
  - inversion E; unfold sized; cbn; auto.
  - inversion E; unfold sized; cbn. rewrite repeat_length. auto.
  - inversion E; unfold sized; cbn. rewrite repeat_length. auto.
  - unfold setControlInputType in E. inversion E.
    destruct (String.eqb s "noInteg"); [unfold sized; cbn; auto|].
    destruct (String.eqb s "oneInteg"); [unfold sized; cbn; auto|].
    destruct (String.eqb s "twoInteg"); unfold sized; cbn; auto.
  - unfold setSanityCheck in E. destruct (if b then _ else _); inversion E. unfold sized; cbn; auto.
  - unfold setPositionBounds in E.
    destruct (Nat.eqb_spec (length l) (length (state d))); [|discriminate].
    destruct (Nat.eqb_spec (length u) (length (state d))); [|discriminate].
    inversion E. unfold sized; cbn. repeat split; auto. intros b Hb.
    intuition (subst; auto; try (right; congruence); apply C; cbn; tauto).
  - unfold setVelocityBounds in E.
    destruct (Nat.eqb_spec (length l) (length (velocity d))); [|discriminate].
    destruct (Nat.eqb_spec (length u) (length (velocity d))); [|discriminate].
    inversion E. unfold sized; cbn. repeat split; auto. intros b Hb.
    intuition (subst; auto; try (right; congruence); apply C; cbn; tauto).
  - unfold setTorqueBounds in E.
    destruct (Nat.eqb_spec (length l) (length (state d))); [|discriminate].
    destruct (Nat.eqb_spec (length u) (length (state d))); [|discriminate].
    inversion E. unfold sized; cbn. repeat split; auto. intros b Hb.
    intuition (subst; auto; try (right; congruence); apply C; cbn; tauto).
  - eapply sized_increment; eauto.
Qed.

(** The robot is given its size first; then any history that keeps it.
    Missing: histories that change the size of the robot; false of the
    code, which keeps the old bounds. *)
Theorem device_bounds_sized_partial (n : nat) (cs : list (dcmd num)) (d : device num) :
  (forall c, In c cs -> keeps_size n c) -> drun (DResize n :: cs) dev_init = Ok d ->
  length (state d) = n /\ length (velocity d) = n /\
  forall b, In b [loP d; upP d; loV d; upV d; loT d; upT d] -> b = [] \/ length b = n.
Proof.
  intros K H. unfold Device_Model.drun in H. cbn [ofold] in H.
  change (dsend dev_init (DResize n)) with (setStateSize num zero dev_init n) in H.
  unfold setStateSize in H. cbn [bind] in H.
  eapply (drun_inv (sized n) (keeps_size n) cs _ d); eauto.
  - intros. eapply sized_send; eauto.
  - unfold sized; cbn [state velocity loP upP loV upV loT upT with_velocity with_state Device_Model.dev_init].
    rewrite repeat_length. repeat split. intros b Hb. left. cbn in Hb. intuition.
Qed.

(** Once the checks have been accepted, a control step is defined for
    every control that is not longer than the state (as long only if there
    is a free flyer, i.e. six dofs). Missing: a device whose checks were
    never set, whose first step is undefined. *)
Theorem device_step_defined_partial (d : device num) (u : list num) (dt : num) :
  length (velocity d) = length (state d) ->
  (sanity d = true -> forall b, In b (needed_bounds d) -> length b = length (state d)) ->
  length u <= length (state d) -> (length u = length (state d) -> 6 <= length (state d)) ->
  is_ok (increment d u dt) = true.
Proof.
  intros Hv Hs Hu H6. unfold Device_Model.increment, integrate, needed_bounds in *.
  destruct (sanity d && existsb isnan u); [reflexivity|].
  destruct (ctype d).
  - rewrite set_tail_ok by exact Hu. reflexivity.
  - cbn [bind].
    destruct (check_if_ok ltb (sanity d) (velocity d) (loV d) (upV d)) as (v2 & E & _).
    { intros S. rewrite (Hs S (loV d)), (Hs S (upV d)) by (cbn; tauto). lia. }
    rewrite E. cbn [bind].
    destruct (position_ok add mul ffint (state d) u dt Hu H6) as (s & E2 & L & _). rewrite E2. cbn [bind].
    destruct (check_if_ok ltb (sanity d) s (loP d) (upP d)) as (s2 & E3 & _).
    { intros S. rewrite (Hs S (loP d)), (Hs S (upP d)) by (cbn; tauto). lia. }
    rewrite E3. reflexivity.
  - destruct (second_order_ok add mul (velocity d) u dt ltac:(lia)) as (t & v & E1 & E2 & L1 & L2 & _).
    rewrite E1. cbn [bind]. rewrite E2. cbn [bind].
    destruct (check_if_ok ltb (sanity d) v (loV d) (upV d)) as (v2 & E & _).
    { intros S. rewrite (Hs S (loV d)), (Hs S (upV d)) by (cbn; tauto). lia. }
    rewrite E. cbn [bind].
    set (vc := vadd num add t (vscale num mul u (mul half dt))).
    assert (Lc : length vc = length u) by (unfold vc; rewrite vadd_length, vscale_length; lia).
    destruct (position_ok add mul ffint (state d) vc dt) as (s & E3 & L & _); [lia|lia|].
    rewrite E3. cbn [bind].
    destruct (check_if_ok ltb (sanity d) s (loP d) (upP d)) as (s2 & E4 & _).
    { intros S. rewrite (Hs S (loP d)), (Hs S (upP d)) by (cbn; tauto). lia. }
    rewrite E4. reflexivity.
Qed.

(** Findings.  A new device has its checks on and no bounds: its first step reads outside the
    bounds.  Resizing does not clear the bounds: the checks, still on, read outside too. *)
Theorem device_new_step_undefined_refuted (u : list num) (dt : num) :
  existsb isnan u = false -> drun [DStep u dt] dev_init = UB.
Proof.
  intros H. unfold Device_Model.drun. cbn [ofold].
  unfold Device_Model.dsend, Device_Model.dexec, Device_Model.increment, integrate.
  rewrite H, andb_false_r. reflexivity.
Qed.

Theorem device_resize_keeps_bounds_refuted (u : list num) (dt : num) :
  existsb isnan u = false ->
  let b := repeat zero 6 in
  let cs := [DPosB b b; DVelB b b; DSanity true; DResize 7] in
  (exists d, drun cs dev_init = Ok d /\ sanity d = true /\ length (state d) = 7 /\ length (loP d) = 6) /\
  drun (cs ++ [DStep u dt]) dev_init = UB.
Proof.
  intros H. split.
  - eexists. split; [reflexivity|]. repeat split.
  - unfold Device_Model.drun. rewrite ofold_app.
    match goal with |- bind ?x _ = _ => let y := eval cbn in x in change x with y end.
    cbn [bind ofold]. unfold Device_Model.dsend, Device_Model.dexec, Device_Model.increment, integrate.
    rewrite H, andb_false_r. reflexivity.
Qed.

End Sizes.

(** ** C31: integration laws, over the reals *)
Section Reals.
Local Open Scope R_scope.
Variable ltb : R -> R -> bool.
Variable isnan : R -> bool.
Variable ffint : list R -> list R -> R -> R * R * R * R * R * R.
Notation incr := (increment R (1 / 2) Rplus Rmult ltb isnan ffint).

(** A control sequence: controls and periods. *)
Definition dsteps (us : list (list R * R)) (d : device R) : outcome (device R) :=
  ofold (fun d s => incr d (fst s) (snd s)) us d.

(** The component of a control [u] that drives joint [j] of a robot of size [n]: a control acts
    on the last joints; with as many components as the state, the first six drive the free
    flyer.  *)
Definition drives (n : nat) (u : list R) (j : nat) : Prop :=
  (length u <= n /\ n - length u <= j < n /\ (length u = n -> 6 <= j))%nat.
Definition drive (n : nat) (u : list R) (j : nat) : R := nth (j - (n - length u)) u 0.

Lemma first_order_step (d : device R) u dt n :
  sanity d = false -> ctype d = OneInteg -> length (state d) = n ->
  (length u <= n)%nat -> (length u = n -> 6 <= n)%nat ->
  exists d', incr d u dt = Ok d' /\ sanity d' = false /\ ctype d' = OneInteg /\ length (state d') = n /\
    velOut d' = u /\ stateOut d' = state d' /\
    (forall j, (j < n - length u)%nat -> nth j (state d') 0 = nth j (state d) 0) /\
    (forall j, drives n u j -> nth j (state d') 0 = nth j (state d) 0 + drive n u j * dt).
Proof.
  intros Hs Hm Hn Hu H6. unfold increment, integrate. rewrite Hs, Hm. cbn [andb bind].
  unfold check_if at 1. cbn [bind]. rewrite <- Hn in *.
  destruct (position_ok Rplus Rmult ffint (state d) u dt Hu H6) as (s & E & L & S1 & S2 & _).
  rewrite E. cbn [bind]. unfold check_if. cbn [bind].
  eexists. split; [reflexivity|]. cbn.
  repeat split; auto. intros j (D1 & D2 & D3). unfold drive. apply S2; auto.
Qed.

(** First order: each driven joint moves by the sum of its controls times their periods, and
    joints that are not driven stay where they are. *)
Theorem device_first_order (us : list (list R * R)) (d : device R) (n : nat) :
  sanity d = false -> ctype d = OneInteg -> length (state d) = n -> (6 <= n)%nat ->
  (forall s, In s us -> (length (fst s) <= n)%nat) ->
  exists d', dsteps us d = Ok d' /\
    (forall j, (forall s, In s us -> drives n (fst s) j) ->
       nth j (state d') 0 =
       nth j (state d) 0 + fold_right Rplus 0 (map (fun s => drive n (fst s) j * snd s) us)) /\
    (forall j, (forall s, In s us -> (j < n - length (fst s))%nat) ->
       nth j (state d') 0 = nth j (state d) 0).
Proof.
  intros Hs Hm Hn H6. revert d Hs Hm Hn. induction us as [|[u dt] us IH]; intros d Hs Hm Hn Hu.
  - exists d. split; [reflexivity|]. split; intros; simpl; lra.
  - destruct (first_order_step d u dt n Hs Hm Hn) as (d1 & E & Hs1 & Hm1 & Hn1 & _ & _ & S1 & S2).
    { apply (Hu (u, dt)). left; auto. } { auto. }
    destruct (IH d1 Hs1 Hm1 Hn1) as (d' & E' & P1 & P2).
    { intros; apply Hu; right; auto. }
    exists d'. split.
    { unfold dsteps. cbn [ofold fst snd]. rewrite E. exact E'. }
    split.
    + intros j Hj. rewrite P1 by (intros; apply Hj; right; auto).
      rewrite S2 by (apply (Hj (u, dt)); left; auto). simpl. lra.
    + intros j Hj. rewrite P2 by (intros; apply Hj; right; auto).
      apply S1. apply (Hj (u, dt)). left; auto.
Qed.

(** Second order: motion with constant acceleration [a] during [dt]. *)
Definition accelerated (pv : R * R) (a dt : R) : R * R :=
  (fst pv + snd pv * dt + a * (dt * dt) / 2, snd pv + a * dt).

Lemma second_order_step (d : device R) u dt n :
  sanity d = false -> ctype d = TwoInteg -> length (state d) = n -> length (velocity d) = n ->
  (length u <= n)%nat -> (length u = n -> 6 <= n)%nat ->
  exists d', incr d u dt = Ok d' /\ sanity d' = false /\ ctype d' = TwoInteg /\ length (state d') = n /\
    length (velocity d') = n /\ velOut d' = velocity d' /\ stateOut d' = state d' /\
    (forall j, (j < n - length u)%nat ->
       nth j (state d') 0 = nth j (state d) 0 /\ nth j (velocity d') 0 = nth j (velocity d) 0) /\
    (forall j, drives n u j ->
       (nth j (state d') 0, nth j (velocity d') 0) =
       accelerated (nth j (state d) 0, nth j (velocity d) 0) (drive n u j) dt).
Proof.
  intros Hs Hm Hn Hv Hu H6. unfold increment, integrate. rewrite Hs, Hm. cbn [andb].
  destruct (second_order_ok Rplus Rmult (velocity d) u dt ltac:(lia)) as (t & v & E1 & E2 & L1 & L2 & V1 & V2 & V3).
  rewrite E1. cbn [bind]. rewrite E2. cbn [bind]. unfold check_if at 1. cbn [bind].
  set (vc := vadd R Rplus t (vscale R Rmult u (1 / 2 * dt))).
  assert (Lc : length vc = length u) by (unfold vc; rewrite vadd_length, vscale_length; lia).
  destruct (position_ok Rplus Rmult ffint (state d) vc dt) as (s & E & L & S1 & S2 & _); [lia|lia|].
  rewrite E. cbn [bind]. unfold check_if. cbn [bind].
  eexists. split; [reflexivity|]. cbn. repeat split; auto; try lia.
  - apply S1. lia.
  - apply V1. lia.
  - intros j (D1 & D2 & D3). unfold accelerated, drive. cbn [fst snd]. f_equal.
    + rewrite S2 by lia. rewrite Lc, Hn. unfold vc.
      rewrite nth_vadd by (rewrite ?vscale_length; lia). rewrite nth_vscale by lia.
      rewrite V2 by lia. rewrite Hv. replace (n - length u + (j - (n - length u)))%nat with j by lia. field.
    + specialize (V3 (j - (n - length u))%nat 0 ltac:(lia)). rewrite Hv in V3.
      replace (n - length u + (j - (n - length u)))%nat with j in V3 by lia. exact V3.
Qed.

Theorem device_second_order (us : list (list R * R)) (d : device R) (n : nat) :
  sanity d = false -> ctype d = TwoInteg -> length (state d) = n -> length (velocity d) = n -> (6 <= n)%nat ->
  (forall s, In s us -> (length (fst s) <= n)%nat) ->
  exists d', dsteps us d = Ok d' /\
    forall j, (forall s, In s us -> drives n (fst s) j) ->
      (nth j (state d') 0, nth j (velocity d') 0) =
      fold_left (fun pv s => accelerated pv (drive n (fst s) j) (snd s)) us
        (nth j (state d) 0, nth j (velocity d) 0).
Proof.
  intros Hs Hm Hn Hv H6. revert d Hs Hm Hn Hv. induction us as [|[u dt] us IH]; intros d Hs Hm Hn Hv Hu.
  - exists d. split; reflexivity.
  - destruct (second_order_step d u dt n Hs Hm Hn Hv) as (d1 & E & Hs1 & Hm1 & Hn1 & Hv1 & _ & _ & _ & S2).
    { apply (Hu (u, dt)). left; auto. } { auto. }
    destruct (IH d1 Hs1 Hm1 Hn1 Hv1) as (d' & E' & P1).
    { intros; apply Hu; right; auto. }
    exists d'. split.
    { unfold dsteps. cbn [ofold fst snd]. rewrite E. exact E'. }
    intros j Hj. rewrite P1 by (intros; apply Hj; right; auto). cbn [fold_left fst snd].
    rewrite S2 by (apply (Hj (u, dt)); left; auto). reflexivity.
Qed.

(** Under a constant acceleration the sampled motion is exact: q0 + v0 t + a t^2 / 2. *)
Theorem accelerated_exact (k : nat) (p v a dt : R) :
  fold_left (fun pv (_ : unit) => accelerated pv a dt) (repeat tt k) (p, v) =
  (p + v * (INR k * dt) + a * ((INR k * dt) * (INR k * dt)) / 2, v + a * (INR k * dt)).
Proof.
  revert p v. induction k as [|k IH]; intros p v.
  - simpl. f_equal; field.
  - cbn [repeat fold_left]. unfold accelerated at 2. cbn [fst snd]. rewrite IH.
    rewrite S_INR. f_equal; field.
Qed.

(** The direct mode copies the control in the last joints. *)
Theorem device_no_integration (d : device R) (u : list R) (dt : R) (n : nat) :
  sanity d && existsb isnan u = false -> ctype d = NoInteg -> length (state d) = n -> (length u <= n)%nat ->
  exists d', incr d u dt = Ok d' /\ length (state d') = n /\ velOut d' = velOut d /\
    (forall j, (j < n - length u)%nat -> nth j (state d') 0 = nth j (state d) 0) /\
    (forall j, (n - length u <= j < n)%nat -> nth j (state d') 0 = nth (j - (n - length u)) u 0).
Proof.
  intros Hs Hm Hn Hu. unfold increment, integrate. rewrite Hs, Hm.
  rewrite set_tail_ok by lia. cbn [bind]. eexists. split; [reflexivity|]. cbn. rewrite Hn.
  split; [rewrite app_length, firstn_length; lia|]. split; [reflexivity|]. split; intros j Hj.
  - rewrite app_nth1 by (rewrite firstn_length; lia). apply nth_firstn_lt. exact Hj.
  - rewrite app_nth2 by (rewrite firstn_length; lia). rewrite firstn_length. f_equal. lia.
Qed.

End Reals.

(** ** Examples *)

(** A robot with a free flyer and two joints, driven by controls of different sizes. *)
Example device_first_order_example (ffint : list R -> list R -> R -> R * R * R * R * R * R) :
  let d := mkDevice (repeat 0%R 8) (repeat 0%R 8) [] false OneInteg [] [] [] [] [] [] (repeat 0%R 8) (repeat 0%R 8) in
  let us := [([1; 2], 1); ([0; 0; 0; 0; 0; 0; 3; 4], 1 / 2)]%R in
  (forall s, In s us -> drives 8 (fst s) 7) /\ (forall s, In s us -> drives 8 (fst s) 6) /\
  exists d', dsteps (fun _ _ => false) (fun _ => false) ffint us d = Ok d' /\
    nth 7 (state d') 0%R = 4%R /\ nth 6 (state d') 0%R = (5 / 2)%R.
Proof.
  cbv zeta. split; [|split].
  - intros s [<-|[<-|[]]]; unfold drives; cbn; lia.
  - intros s [<-|[<-|[]]]; unfold drives; cbn; lia.
  - edestruct (device_first_order (fun _ _ => false) (fun _ => false) ffint
      [([1; 2], 1); ([0; 0; 0; 0; 0; 0; 3; 4], 1 / 2)]%R
      (mkDevice (repeat 0%R 8) (repeat 0%R 8) [] false OneInteg [] [] [] [] [] [] (repeat 0%R 8) (repeat 0%R 8)) 8)
      as (d' & E & H & _); try reflexivity; try lia.
    { intros s [<-|[<-|[]]]; cbn; lia. }
    exists d'. split; [exact E|]. split; rewrite H.
    + unfold drive. cbn. lra.
    + intros s [<-|[<-|[]]]; unfold drives; cbn; lia.
    + unfold drive. cbn. lra.
    + intros s [<-|[<-|[]]]; unfold drives; cbn; lia.
Qed.

(** Wanted: setRoot puts the free-flyer of the state at the given pose.  Whatever the pose and the device, the command
    writes outside of a vector. *)
Theorem set_root_refuted (num : Type) (d : device num) (t rpy : list num) :
  length t = 3 -> length rpy = 3 -> setRoot num d t rpy = UB.
Proof.
  intros Ht Hr. do 4 (destruct t as [|? t]; [try discriminate|try discriminate]). do 4 (destruct rpy as [|? rpy]; [try discriminate|try discriminate]).
  reflexivity.
Qed.

Example device_sized_example :
  let b := repeat 0%Z 8 in
  exists d, drun Z 0%Z 0%Z Z.add Z.mul Z.ltb (fun _ => false) (fun _ _ _ => (0, 0, 0, 0, 0, 0)%Z)
    [DResize 8; DSanity false; DPosB b (repeat 9%Z 8); DVelB b b; DSanity true; DPosB [1%Z] [1%Z];
     DStep [1%Z] 3%Z; DStep [4%Z; 5%Z] 3%Z]
    (dev_init Z 0%Z) = Ok d /\ state d = [0; 0; 0; 0; 0; 0; 9; 9]%Z /\ sanity d = true /\ length (loP d) = 8.
Proof. eexists. split; [vm_compute; reflexivity|]. vm_compute. repeat split. Qed.

Print Assumptions device_mode.
Print Assumptions device_mode_commands.
Print Assumptions bounds_setters.
Print Assumptions sanity_setter.
Print Assumptions device_bounds_paired.
Print Assumptions device_bounds_sized_partial.
Print Assumptions device_step_defined_partial.
Print Assumptions device_first_order.
Print Assumptions device_second_order.
Print Assumptions accelerated_exact.
Print Assumptions velocity_setter.
Print Assumptions set_root_refuted.
