(** The Python position features (C115), and the zero of the error of the 6d point (C87). *)
From Coq Require Import String List Arith Lia ZArith Bool Reals Lra Psatz.
From Verif Require Import Base Flags_Model Feature_Model Feature_Proofs Geom_Model Geom_Facts
  Geom_Rot Geom_Props OpPoint_Model OpPoint_Props Rodr_Facts Rel_Facts Log6_Facts
  Point6d_Model Point6d_Props Pose_Model Pose_Props Rel6_Model Rel6_Props PyFeat_Model.
Import ListNotations.
Local Open Scope R_scope.
Local Open Scope string_scope.

Definition zero6 : list R := [0; 0; 0; 0; 0; 0].

Lemma pose6_zero m : is_rigid m -> map (v6at (pose6 m)) [0; 1; 2; 3; 4; 5]%nat = zero6 <-> m = hid.
Proof.
  intros H. unfold v6at, pose6. cbn [map Nat.ltb Nat.leb Nat.sub fst snd v3at]. split.
  - intros Q. destruct m as [L T]. cbn [lin trn] in *.
    assert (L = mid).
    { apply rotvec_zero; [exact H|]. apply vec3_ext;
        [exact (f_equal (fun l => nth 3 l 0) Q)|exact (f_equal (fun l => nth 4 l 0) Q)|exact (f_equal (fun l => nth 5 l 0) Q)]. }
    assert (T = v0).
    { apply vec3_ext;
        [exact (f_equal (fun l => nth 0 l 0) Q)|exact (f_equal (fun l => nth 1 l 0) Q)|exact (f_equal (fun l => nth 2 l 0) Q)]. }
    subst. reflexivity.
  - intros ->. unfold hid. cbn [lin trn]. rewrite rotvec_id. reflexivity.
Qed.

Lemma chosen_all fl : (forall k, (k < 6)%nat -> at_ fl (Z.of_nat k) = Ok true) -> chosen fl 6 = [0; 1; 2; 3; 4; 5]%nat.
Proof.
  intros Hf. assert (F : forall k, (k < 6)%nat -> flag fl k = true).
  { intros k Hk. pose proof (at_flag fl k) as P. rewrite (Hf k Hk) in P. now injection P. }
  unfold chosen. cbn [seq filter]. rewrite !F by lia. reflexivity.
Qed.

Lemma rel_hid a b : is_rigid a -> rel a b = hid <-> a = b.
Proof.
  intros Ha. unfold rel. split.
  - intros E. rewrite <- (hmul_id_r a), <- E, hmul_assoc, hmul_inv_r, hmul_id_l by exact Ha. reflexivity.
  - intros <-. apply hmul_inv_l, Ha.
Qed.

Lemma hid_rigid : is_rigid hid.
Proof. unfold is_rigid, hid. cbn [lin]. apply rot_id. Qed.

(** C87: with everything selected the error is zero exactly when the two frames coincide, in both
    computation frames. *)
Theorem point6d_error_zero g p fl M ref :
  is_rigid M -> is_rigid (desired ref) -> (forall k, (k < 6)%nat -> at_ fl (Z.of_nat k) = Ok true) ->
  (exists p', p6_error g p fl 6 M ref = Ok (p', zero6)) <-> M = desired ref.
Proof.
  intros HM HD Hf. destruct (point6d_error g p fl M ref) as (th & E & _).
  rewrite (chosen_all fl Hf) in E. cbn [length] in E. rewrite E.
  assert (HS : is_rigid (seen (cframe p) M ref)) by (unfold seen; destruct (cframe p); apply rel_rigid; assumption).
  transitivity (seen (cframe p) M ref = hid).
  - rewrite <- (pose6_zero _ HS). split.
    + intros (p' & Q). exact (f_equal (fun o => match o with Ok (_, e) => e | _ => [] end) Q).
    + intros ->. eexists. reflexivity.
  - unfold seen. destruct (cframe p).
    + rewrite rel_hid by exact HD. split; auto.
    + apply rel_hid, HM.
Qed.

(** ** Specification of FeaturePositionRelative: the last pose given under each of the four names *)
Definition poses := string -> input.
Definition give (s : poses) (name : string) (i : input) : poses := fun n => if String.eqb n name then i else s n.
Definition arg (i : option input) : input := match i with Some i => i | None => Val hid end.
Definition start (base other baseRef otherRef : option input) : poses :=
  fun n => if String.eqb n "basePosition" then arg base
           else if String.eqb n "otherPosition" then arg other
           else if String.eqb n "baseReference" then arg baseRef else arg otherRef.
Definition after (s : poses) (c : rcmd) : poses :=
  match c with
  | Assign n i => give s n i
  | Keep t => give s "otherReference" (Val (at_time (s "otherPosition") t))
  end.
Definition names : list string := ["basePosition"; "otherPosition"; "baseReference"; "otherReference"].
Definition agree (r : relative) (s : poses) : Prop :=
  f_positionRef r = s "basePosition" /\ f_position r = s "otherPosition" /\
  r_positionRef r = s "baseReference" /\ r_position r = s "otherReference" /\ six = Ok (r_selec r).

Lemma lookup_in {A} (m : list (string * A)) n a : lookup m n = Ok a -> In (n, a) m.
Proof.
  unfold lookup. destruct (find _ m) as [[k v]|] eqn:F; [|discriminate]. intros H. injection H as <-.
  apply find_some in F. destruct F as [F E]. apply String.eqb_eq in E. simpl in E. subst. exact F.
Qed.

Lemma agree_step r s c r' : agree r s -> relative_exec r c = Ok r' -> agree r' (after s c).
Proof.
  intros (A & B & C & D & F) E. destruct c as [n i|t]; simpl in E.
  - destruct (relative_signal n) as [x| |] eqn:X; try discriminate. simpl in E. apply lookup_in in X.
    simpl in X. repeat destruct X as [X|X]; try contradiction; injection X as <- <-; simpl in E; try discriminate;
      injection E as <-; unfold agree, after, give; cbn; auto.
  - unfold relative_keep in E. cbn [p6_keep bind] in E. injection E as <-.
    unfold agree, after, give; cbn. rewrite B. auto.
Qed.

Lemma agree_run l : forall r s r', agree r s -> ofold relative_exec l r = Ok r' -> agree r' (fold_left after l s).
Proof.
  induction l as [|c l IH]; intros r s r' H E; simpl in E.
  - injection E as <-. exact H.
  - destruct (relative_exec r c) as [r1| |] eqn:E1; try discriminate. simpl in E. simpl. apply (IH r1); [|exact E].
    apply (agree_step r); assumption.
Qed.

Lemma rel_swap a b c d : is_rigid a -> is_rigid b -> is_rigid c -> is_rigid d ->
  rel a b = rel c d <-> rel b a = rel d c.
Proof.
  assert (I : forall x y, is_rigid x -> is_rigid y -> hinv (rel x y) = rel y x).
  { intros x y Hx Hy. unfold rel.
    assert (Hix : is_rigid (hinv x)) by (unfold hinv, is_rigid; cbn [lin]; rewrite (rot_inv _ Hx); apply rot_T, Hx).
    rewrite hinv_hmul by assumption. f_equal.
    rewrite <- (hmul_id_r (hinv (hinv x))), <- (hmul_inv_l x Hx), hmul_assoc, (hmul_inv_l (hinv x) Hix), hmul_id_l. reflexivity. }
  intros Ha Hb Hc Hd. split; intros E.
  - rewrite <- (I a b), <- (I c d) by assumption. now rewrite E.
  - rewrite <- (I b a), <- (I d c) by assumption. now rewrite E.
Qed.

Lemma six_all fl : six = Ok fl -> forall k, (k < 6)%nat -> at_ fl (Z.of_nat k) = Ok true.
Proof.
  intros E. injection E as <-. intros k Hk. do 6 (destruct k as [|k]; [reflexivity|]). lia.
Qed.

(** C115: whatever was done on a FeaturePositionRelative, its error is zero at a time exactly when
    the other frame seen from the base frame is the other reference seen from the base reference. *)
Theorem relative_feature_error (base other baseRef otherRef : option input) (l : list rcmd) (r0 r : relative) g t :
  relative_new base other baseRef otherRef = Ok r0 -> ofold relative_exec l r0 = Ok r ->
  let p n := at_time (fold_left after l (start base other baseRef otherRef) n) t in
  (forall n, In n names -> is_rigid (p n)) ->
  relative_error g r t = Ok zero6
  <-> rel (p "basePosition") (p "otherPosition") = rel (p "baseReference") (p "otherReference").
Proof.
  intros E0 E p Hp.
  assert (A0 : agree r0 (start base other baseRef otherRef)).
  { injection E0 as <-. unfold agree, start; cbn. destruct base, other, baseRef, otherRef; auto. }
  destruct (agree_run l _ _ _ A0 E) as (A & B & C & D & F). clear A0 E0 E.
  set (s := fold_left after l (start base other baseRef otherRef)) in *.
  assert (H1 := Hp "basePosition" ltac:(simpl; auto)). assert (H2 := Hp "otherPosition" ltac:(simpl; auto)).
  assert (H3 := Hp "baseReference" ltac:(simpl; auto)). assert (H4 := Hp "otherReference" ltac:(simpl; auto)).
  unfold relative_error. rewrite point6d_dimension. cbn [bind]. rewrite (chosen_all _ (six_all _ F)). cbn [length].
  rewrite A, B, C, D. fold (p "basePosition") (p "otherPosition") (p "baseReference") (p "otherReference").
  unfold zero6. rewrite relative6_error_zero; [|assumption..|unfold rigid_ref; cbn [wanted]; apply rel_rigid; assumption|apply (six_all _ F)].
  cbn [wanted]. apply rel_swap; assumption.
Qed.

(** The names of the documentation are accepted, no other one. *)
Theorem relative_feature_names (r : relative) (n : string) (i : input) :
  (exists r', relative_exec r (Assign n i) = Ok r') <-> In n names.
Proof.
  split.
  - intros (r' & E). simpl in E. destruct (relative_signal n) as [x| |] eqn:X; try discriminate. simpl in E.
    apply lookup_in in X. simpl in X. repeat destruct X as [X|X]; try contradiction; injection X as <- <-;
      simpl in E; try discriminate; simpl; auto.
  - simpl. intros [<-|[<-|[<-|[<-|[]]]]]; eexists; reflexivity.
Qed.

(** A FeaturePositionRelative is always created; every other operation is done or raises an exception,
    and keep is always done. *)
Theorem relative_feature_defined (base other baseRef otherRef : option input) (r : relative) (c : rcmd) (t : Z) :
  (exists r0, relative_new base other baseRef otherRef = Ok r0) /\
  relative_exec r c <> UB /\ exists r', relative_keep r t = Ok r'.
Proof.
  split; [eexists; reflexivity|]. split; [|eexists; reflexivity]. destruct c as [n i|t']; [|discriminate]. simpl.
  destruct (relative_signal n) as [x|w|] eqn:X; [|discriminate|unfold relative_signal, lookup in X; destruct (find _ _); discriminate].
  destruct x; discriminate.
Qed.

(** keep: wanted is that the feature keeps the present relative pose, that is its error is zero
    afterwards.  This is so exactly when the base is at its reference. *)
Theorem relative_feature_keep_partial (base other baseRef otherRef : option input) (l : list rcmd) (r0 r r' : relative) g t :
  relative_new base other baseRef otherRef = Ok r0 -> ofold relative_exec l r0 = Ok r ->
  relative_keep r t = Ok r' ->
  let p n := at_time (fold_left after l (start base other baseRef otherRef) n) t in
  (forall n, In n names -> is_rigid (p n)) ->
  relative_error g r' t = Ok zero6 <-> p "basePosition" = p "baseReference".
Proof.
  intros E0 E K p Hp.
  assert (E' : ofold relative_exec (l ++ [Keep t]) r0 = Ok r').
  { rewrite ofold_app, E. cbn [bind ofold relative_exec]. rewrite K. reflexivity. }
  assert (H1 := Hp "basePosition" ltac:(simpl; auto)). assert (H2 := Hp "otherPosition" ltac:(simpl; auto)).
  assert (H3 := Hp "baseReference" ltac:(simpl; auto)).
  rewrite (relative_feature_error base other baseRef otherRef (l ++ [Keep t]) r0 r' g t E0 E').
  - rewrite fold_left_app. cbn [fold_left after]. unfold give. cbn [String.eqb Ascii.eqb Bool.eqb at_time].
    fold (p "basePosition") (p "otherPosition") (p "baseReference").
    unfold rel. split.
    + intros Q.
      assert (Q' : hinv (p "basePosition") = hinv (p "baseReference")).
      { rewrite <- (hmul_id_r (hinv (p "basePosition"))), <- (hmul_id_r (hinv (p "baseReference"))).
        rewrite <- (hmul_inv_r (p "otherPosition") H2), !hmul_assoc, Q. reflexivity. }
      rewrite <- (hmul_id_l (p "baseReference")), <- (hmul_inv_r (p "basePosition") H1), Q', <- hmul_assoc.
      rewrite (hmul_inv_l _ H3), hmul_id_r. reflexivity.
    + intros ->. reflexivity.
  - intros n Hn. rewrite fold_left_app. cbn [fold_left after]. unfold give.
    destruct (String.eqb_spec n "otherReference"); [exact H2|apply Hp, Hn].
Qed.
(* Missing: the case of a base that is not at its reference, where keep does not keep. *)

Theorem relative_feature_keep_refuted :
  exists base r0 r g, relative_new (Some (Val base)) None None None = Ok r0 /\ is_rigid base /\
    relative_keep r0 0 = Ok r /\ relative_error g r 0 <> Ok zero6.
Proof.
  exists (H mid (V3 1 0 0)). do 2 eexists. exists 0. split; [reflexivity|]. split; [apply rot_id|]. split; [reflexivity|].
  intros Q.
  apply (relative_feature_keep_partial (Some (Val (H mid (V3 1 0 0)))) None None None [] _ _ _ 0 0%Z eq_refl eq_refl eq_refl) in Q.
  - cbn in Q. injection Q. lra.
  - simpl. intros n [<-|[<-|[<-|[<-|[]]]]]; cbn; apply rot_id.
Qed.

(** ** FeaturePosition *)
Definition pafter (s : option input * option input) (c : pcmd) : option input * option input :=
  match c with
  | PAssign n i => if String.eqb n "position" then (Some i, snd s)
                   else if String.eqb n "reference" then (fst s, Some i) else s
  | PKeep t => (fst s, match fst s with Some i => Some (Val (at_time i t)) | None => snd s end)
  | PFrame _ => s
  end.
Definition pstart (pos : option input) (ref : refarg) : option input * option input :=
  (pos, match ref with RNone => None | RTuple m => Some (Val m) | RArray m => Some (Val m) end).
Definition pagree (q : position) (s : option input * option input) : Prop :=
  q_position q = fst s /\ q_reference q = snd s /\ six = Ok (q_selec q).

Lemma pagree_step q s c q' : pagree q s -> position_exec q c = Ok q' -> pagree q' (pafter s c).
Proof.
  destruct s as [a b]. intros (A & B & C) E. destruct c as [n i|t|f]; simpl in E.
  - destruct (position_signal n) as [x| |] eqn:X; try discriminate. simpl in E. apply lookup_in in X.
    simpl in X. repeat destruct X as [X|X]; try contradiction; injection X as <- <-; simpl in E; try discriminate;
      injection E as <-; unfold pagree; cbn in *; auto.
  - unfold position_keep in E. simpl in A. rewrite A in E. destruct a as [i|]; [|discriminate].
    cbn [p6_keep bind position_set] in E. injection E as <-. unfold pagree; cbn. auto.
  - unfold position_frame in E. destruct (p6_set_frame (q_p6 q) f); try discriminate. injection E as <-.
    unfold pagree; cbn; auto.
Qed.

Lemma pagree_run l : forall q s q', pagree q s -> ofold position_exec l q = Ok q' -> pagree q' (fold_left pafter l s).
Proof.
  induction l as [|c l IH]; intros q s q' H E; simpl in E.
  - injection E as <-. exact H.
  - destruct (position_exec q c) as [q1| |] eqn:E1; try discriminate. simpl in E. simpl. apply (IH q1); [|exact E].
    apply (pagree_step q); assumption.
Qed.

(** C115: whatever was done on a FeaturePosition, its error is defined exactly when both poses were
    given, and is zero at a time exactly when they are equal. *)
Theorem position_feature_error p (pos : option input) (ref : refarg) (l : list pcmd) (q0 q : position) g t :
  position_new p pos ref = Ok q0 -> ofold position_exec l q0 = Ok q ->
  match fold_left pafter l (pstart pos ref) with
  | (Some a, Some b) => is_rigid (at_time a t) -> is_rigid (at_time b t) ->
      (position_error g q t = Ok zero6 <-> at_time a t = at_time b t) /\
      exists e, position_error g q t = Ok e /\ length e = 6%nat
  | _ => exists w, position_error g q t = Throw w
  end.
Proof.
  intros E0 E.
  assert (A0 : pagree q0 (pstart pos ref)).
  { unfold position_new in E0. destruct ref; try discriminate; cbn in E0; injection E0 as <-; unfold pagree, pstart; cbn; auto. }
  destruct (pagree_run l _ _ _ A0 E) as (A & B & F). clear A0 E0 E.
  destruct (fold_left pafter l (pstart pos ref)) as [[a|] [b|]]; unfold position_error; cbn [fst snd] in A, B; rewrite A; try rewrite B; eauto.
  intros Ha Hb. rewrite point6d_dimension. cbn [bind]. rewrite (chosen_all _ (six_all _ F)). cbn [length].
  pose proof (point6d_error_zero g (q_p6 q) (q_selec q) (at_time a t) (Some (at_time b t)) Ha Hb (six_all _ F)) as Z.
  cbn [desired] in Z. destruct (point6d_error g (q_p6 q) (q_selec q) (at_time a t) (Some (at_time b t))) as (th & Q & _).
  rewrite (chosen_all _ (six_all _ F)) in Q. cbn [length] in Q. split.
  - rewrite <- Z, Q. cbn [bind]. split.
    + intros E. apply (f_equal (fun o => match o with Ok e => e | _ => [] end)) in E. eexists. rewrite E. reflexivity.
    + intros (p' & E). apply (f_equal (fun o => match o with Ok (_, e) => e | _ => [] end)) in E. f_equal. exact E.
  - rewrite Q. cbn [bind]. eexists. split; [reflexivity|]. reflexivity.
Qed.

(** keep on a FeaturePosition gives a zero error, in either frame. *)
Theorem position_feature_keep p pos ref (l : list pcmd) (q0 q q' : position) g t :
  position_new p pos ref = Ok q0 -> ofold position_exec l q0 = Ok q -> position_keep q t = Ok q' ->
  (forall i, q_position q = Some i -> is_rigid (at_time i t)) -> position_error g q' t = Ok zero6.
Proof.
  intros E0 E K Hr.
  assert (E' : ofold position_exec (l ++ [PKeep t]) q0 = Ok q').
  { rewrite ofold_app, E. cbn [bind ofold position_exec]. rewrite K. reflexivity. }
  pose proof (position_feature_error p pos ref (l ++ [PKeep t]) q0 q' g t E0 E') as T.
  assert (A0 : pagree q0 (pstart pos ref)).
  { unfold position_new in E0. destruct ref; try discriminate; cbn in E0; injection E0 as <-; unfold pagree, pstart; cbn; auto. }
  destruct (pagree_run l _ _ _ A0 E) as (A & _ & _).
  rewrite fold_left_app in T. cbn [fold_left pafter] in T.
  destruct (fold_left pafter l (pstart pos ref)) as [[i|] b]; cbn [fst snd] in *.
  - specialize (Hr i A). apply T; cbn [at_time]; auto.
  - unfold position_keep in K. rewrite A in K. discriminate.
Qed.

(** A FeaturePosition is created unless the reference is an array; a pose is given under the names
    position and reference only, the frame is one of two, and keep needs the position.  Anything else
    raises an exception. *)
Theorem position_feature_defined p pos ref (q : position) (n f : string) (i : input) (t : Z) :
  ((exists q0, position_new p pos ref = Ok q0) <-> forall m, ref <> RArray m) /\
  ((exists q', position_exec q (PAssign n i) = Ok q') <-> n = "position" \/ n = "reference") /\
  ((exists q', position_exec q (PFrame f) = Ok q') <-> f = "current" \/ f = "desired") /\
  ((exists q', position_exec q (PKeep t) = Ok q') <-> q_position q <> None) /\
  forall c, position_exec q c <> UB.
Proof.
  split; [|split; [|split; [|split]]].
  - split.
    + intros (q0 & E) m ->. discriminate.
    + intros E. destruct ref as [|m|m]; [eexists; reflexivity|eexists; reflexivity|exfalso; exact (E m eq_refl)].
  - split.
    + intros (q' & E). simpl in E. destruct (position_signal n) as [x| |] eqn:X; try discriminate. simpl in E.
      apply lookup_in in X. simpl in X. repeat destruct X as [X|X]; try contradiction; injection X as <- <-;
        simpl in E; try discriminate; auto.
    + intros [-> | ->]; eexists; reflexivity.
  - simpl. unfold position_frame. destruct (point6d_frame (q_p6 q) f) as (_ & F & _). rewrite <- F. split.
    + intros (q' & E). destruct (p6_set_frame (q_p6 q) f) as [p'| |]; try discriminate. eauto.
    + intros (p' & ->). eexists. reflexivity.
  - simpl. unfold position_keep. destruct (q_position q) as [a|]; split; try (intros (q' & E); discriminate || congruence); try congruence.
    intros _. eexists. reflexivity.
  - intros [n' i'|t'|f']; simpl.
    + destruct (position_signal n') as [x|w|] eqn:X; [destruct x; discriminate|discriminate|].
      unfold position_signal, lookup in X; destruct (find _ _); discriminate.
    + unfold position_keep. destruct (q_position q); discriminate.
    + unfold position_frame, p6_set_frame. repeat destruct (String.eqb _ _); discriminate.
Qed.

(** A new FeaturePosition works in the current frame; frame accepts the two names. *)
Theorem position_feature_frame p pos ref q0 :
  position_new p pos ref = Ok q0 ->
  p6_get_frame (q_p6 q0) = "current" /\
  forall f q, position_frame q0 f = Ok q -> p6_get_frame (q_p6 q) = f /\ (f = "current" \/ f = "desired").
Proof.
  intros E. unfold position_new in E. split.
  - destruct ref; try discriminate; cbn in E; injection E as <-; reflexivity.
  - intros f q K. unfold position_frame in K. destruct (p6_set_frame (q_p6 q0) f) as [p'| |] eqn:P; try discriminate.
    injection K as <-. destruct (point6d_frame (q_p6 q0) f) as (F1 & F2 & _). cbn. split; [apply F1, P|apply F2; eauto].
Qed.

(** Wanted: the reference may be given as any matrix, and every signal kept as a member is found
    by its name.  A numpy array is refused; two members are not found. *)
Theorem position_feature_array_refuted p pos m : exists w, position_new p pos (RArray m) = Throw w.
Proof. eexists. reflexivity. Qed.
Theorem position_feature_signal_partial n s : position_signal n = Ok s -> In (n, s) position_members.
Proof. intros H. apply lookup_in in H. simpl in *. intuition. Qed.
(* Missing: errordot and velocity. *)
Theorem position_feature_signal_refuted n s : In (n, s) position_members ->
  ((exists w, position_signal n = Throw w) <-> n = "errordot" \/ n = "velocity").
Proof.
  simpl. intros [X|[X|[X|[X|[X|[X|[X|[]]]]]]]]; injection X as <- <-; (split; [intros (w & E); cbn in E; try discriminate; auto|]);
    intros [Q|Q]; try discriminate; eexists; reflexivity.
Qed.

(** A case: a moving base and other frame, the reference given later. *)
Example relative_feature_case :
  exists r0 r, relative_new (Some (Sig (fun t => H mid (V3 (IZR t) 0 0)))) (Some (Sig (fun t => H mid (V3 (IZR t + 1) 0 0)))) None None = Ok r0 /\
    ofold relative_exec [Assign "otherReference" (Val (H mid (V3 3 0 0))); Assign "baseReference" (Val (H mid (V3 2 0 0)))] r0 = Ok r /\
    forall t, relative_error 0 r t = Ok zero6.
Proof.
  do 2 eexists. split; [reflexivity|]. split; [reflexivity|]. intros t.
  match goal with |- relative_error 0 ?r t = _ => eapply (relative_feature_error _ _ _ _
    [Assign "otherReference" (Val (H mid (V3 3 0 0))); Assign "baseReference" (Val (H mid (V3 2 0 0)))] _ r 0 t) end.
  - reflexivity.
  - reflexivity.
  - simpl. intros n [<-|[<-|[<-|[<-|[]]]]]; cbn; apply rot_id.
  - cbn -[rel mid]. unfold rel, hmul, hinv. cbn [lin trn]. rewrite !(rot_inv _ rot_id).
    replace (mT mid) with mid by reflexivity. rewrite !mapp_id. f_equal. unfold vadd, vopp. gcbn. f_equal; ring.
Qed.

Print Assumptions point6d_error_zero.
Print Assumptions relative_feature_error.
Print Assumptions relative_feature_names.
Print Assumptions relative_feature_keep_partial.
Print Assumptions relative_feature_keep_refuted.
Print Assumptions position_feature_error.
Print Assumptions position_feature_keep.
Print Assumptions position_feature_frame.
Print Assumptions position_feature_array_refuted.
Print Assumptions position_feature_signal_partial.
Print Assumptions position_feature_signal_refuted.
Print Assumptions relative_feature_defined.
Print Assumptions position_feature_defined.
