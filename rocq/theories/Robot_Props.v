(** C62 (names and ids), C63 (joint orders), C64 (limits and range checks), C84 (parameter servers),
    C85 (parameters). *)
From Coq Require Import String Ascii List Arith Lia ZArith Bool Permutation Sorting.Sorted.
From Coq Require Import SpecFloat.
From Verif Require Import Base SMap Float_Facts Robot_Model.
Import ListNotations.
Local Open Scope string_scope.

(** ** Specification: the last command that concerns something. *)
Definition last_of {C B} (f : C -> option B) (h : list C) : option B :=
  fold_left (fun a c => match f c with Some b => Some b | None => a end) h None.

Lemma last_of_snoc {C B} (f : C -> option B) h c :
  last_of f (h ++ [c]) = match f c with Some b => Some b | None => last_of f h end.
Proof. unfold last_of. rewrite fold_left_app. reflexivity. Qed.

Lemma last_of_in {C B} (f : C -> option B) h b : last_of f h = Some b -> exists c, In c h /\ f c = Some b.
Proof.
  induction h as [|c h IH] using rev_ind; [discriminate|]. rewrite last_of_snoc. destruct (f c) as [b'|] eqn:E.
  - intros [= ->]. exists c. rewrite in_app_iff. cbn. auto.
  - intros H. destruct (IH H) as (x & A & B'). exists x. rewrite in_app_iff. auto.
Qed.

(** What each command sets. *)
Definition sets_name n c := match c with RName n' i => if n' =? n then Some i else None | _ => None end.
Definition sets_fname n c := match c with RForceName n' i => if n' =? n then Some i else None | _ => None end.
Definition sets_limits i c := match c with RLimits i' l u => if (i' =? i)%Z then Some (l, u) else None | _ => None end.
Definition sets_flimits i c := match c with RForceLimits i' l u => if (i' =? i)%Z then Some (l, u) else None | _ => None end.
Definition sets_joints c := match c with RJoints u => Some u | _ => None end.
Definition sets_sole c := match c with RSole v => Some v | _ => None end.
Definition sets_sensor c := match c with RSensor v => Some v | _ => None end.
Definition sets_foot s c := match c with RFoot s' f => if s' =? s then Some f else None | _ => None end.
Definition sets_hand s c := match c with RHand s' f => if s' =? s then Some f else None | _ => None end.
Definition sets_imu c := match c with RImu n => Some n | _ => None end.
Definition or_else {B} (o : option B) (d : B) : B := match o with Some b => b | None => d end.

Lemma scmp_if {B} (a b : string) (x y : B) :
  match scmp a b with Eq => x | _ => y end = if b =? a then x else y.
Proof.
  destruct (String.eqb_spec b a) as [-> | N].
  - now rewrite (proj2 (scmp_eq a a) eq_refl).
  - destruct (scmp a b) eqn:E; try reflexivity. apply scmp_eq in E. congruence.
Qed.

Lemma zcmp_if {B} (a b : Z) (x y : B) :
  match (a ?= b)%Z with Eq => x | _ => y end = if (b =? a)%Z then x else y.
Proof.
  destruct (Z.eqb_spec b a) as [-> | N].
  - now rewrite Z.compare_refl.
  - destruct (a ?= b)%Z eqn:E; try reflexivity. apply Z.compare_eq_iff in E. congruence.
Qed.

Lemma sfind_mset {V} (m : smap V) k v k' : msorted scmp m ->
  mfind scmp (mset scmp m k v) k' = if k =? k' then Some v else mfind scmp m k'.
Proof. intros H. rewrite (mfind_mset _ _ scmp scmp_eq scmp_antisym scmp_trans) by exact H. apply scmp_if. Qed.

Lemma zfind_mset {V} (m : zmap V) k v k' : msorted Z.compare m ->
  mfind Z.compare (mset Z.compare m k v) k' = if (k =? k')%Z then Some v else mfind Z.compare m k'.
Proof. intros H. rewrite (mfind_mset _ _ Z.compare zcmp_eq zcmp_antisym zcmp_trans) by exact H. apply zcmp_if. Qed.

Lemma smset_sorted {V} (m : smap V) k v : msorted scmp m -> msorted scmp (mset scmp m k v).
Proof. apply mset_sorted; [exact scmp_eq|exact scmp_antisym|exact scmp_trans]. Qed.
Lemma zmset_sorted {V} (m : zmap V) k v : msorted Z.compare m -> msorted Z.compare (mset Z.compare m k v).
Proof. apply mset_sorted; [exact zcmp_eq|exact zcmp_antisym|exact zcmp_trans]. Qed.

(** ** The map from ids to names *)
Definition last_with (names : smap Z) (i : Z) : option string :=
  last_of (fun p => if (snd p =? i)%Z then Some (fst p) else None) names.

Lemma id_to_name_map_find names : forall ids, msorted Z.compare ids ->
  msorted Z.compare (id_to_name_map names ids) /\
  forall i, mfind Z.compare (id_to_name_map names ids) i =
    match last_with names i with Some n => Some n | None => mfind Z.compare ids i end.
Proof.
  unfold id_to_name_map, last_with. induction names as [|[n j] names IH] using rev_ind; intros ids Hs.
  - split; [exact Hs|reflexivity].
  - rewrite fold_left_app. cbn [fold_left fst snd]. destruct (IH ids Hs) as [S F].
    split; [apply zmset_sorted, S|]. intros i. rewrite zfind_mset by exact S. rewrite last_of_snoc. cbn [fst snd].
    destruct (j =? i)%Z; [reflexivity|]. apply F.
Qed.

Lemma last_with_spec names i : msorted scmp names ->
  match last_with names i with
  | Some n => mfind scmp names n = Some i /\ forall n', mfind scmp names n' = Some i -> n' = n \/ scmp n' n = Lt
  | None => forall n, mfind scmp names n <> Some i
  end.
Proof.
  unfold last_with. induction names as [|[n j] names IH] using rev_ind; intros Hs; [cbn; discriminate|].
  rewrite last_of_snoc. cbn [fst snd].
  assert (Hs1 : msorted scmp names /\ forall x, In x names -> scmp (fst x) n = Lt).
  { clear IH. revert Hs. unfold msorted. induction names as [|p names IH]; intros Hs.
    - split; [constructor|intros x []].
    - cbn in Hs. inversion Hs as [|? ? H1 H2]; subst. destruct (IH H1) as [A B]. rewrite Forall_app in H2.
      destruct H2 as [H2 H3]. split; [constructor; assumption|]. intros x [<-|Hx]; [|apply B, Hx].
      inversion H3; subst. assumption. }
  destruct Hs1 as [S1 S2]. specialize (IH S1).
  assert (In_iff : forall k v, mfind scmp (names ++ [(n, j)]) k = Some v <->
                    mfind scmp names k = Some v \/ (k = n /\ v = j)).
  { intros k v. rewrite (mfind_in _ _ scmp scmp_eq scmp_antisym _ _ _ Hs), (mfind_in _ _ scmp scmp_eq scmp_antisym _ _ _ S1).
    rewrite in_app_iff. cbn. split; [intros [X|[[= <- <-]|[]]]; auto|intros [X|[-> ->]]; auto]. }
  destruct (Z.eqb_spec j i) as [-> | N].
  - split; [apply In_iff; auto|]. intros n' H'. apply In_iff in H'. destruct H' as [H'|[-> _]]; [|auto].
    right. apply (mfind_in _ _ scmp scmp_eq scmp_antisym _ _ _ S1) in H'. apply (S2 _ H').
  - destruct (last_of _ names) as [m|].
    + destruct IH as [A B]. split; [apply In_iff; auto|]. intros n' H'. apply In_iff in H'.
      destruct H' as [H'|[_ E]]; [auto|congruence].
    + intros m H'. apply In_iff in H'. destruct H' as [H'|[_ E]]; [now apply (IH m)|congruence].
Qed.

(** ** What the two families of name maps satisfy after a history of (name, id) *)
Definition names_inv (h : list (string * Z)) (names : smap Z) (ids : zmap string) : Prop :=
  msorted scmp names /\ msorted Z.compare ids /\
  (forall n, mfind scmp names n = last_of (fun p => if fst p =? n then Some (snd p) else None) h) /\
  (forall n i, mfind scmp names n = Some i ->
     exists n', mfind Z.compare ids i = Some n' /\ mfind scmp names n' = Some i /\ (n = n' \/ scmp n n' = Lt)) /\
  (forall i n, mfind Z.compare ids i = Some n -> In (n, i) h).

Lemma names_inv_start : names_inv [] [] [].
Proof. repeat split; try constructor; cbn; try discriminate. Qed.

Lemma names_inv_step h names ids n i : names_inv h names ids ->
  names_inv (h ++ [(n, i)]) (mset scmp names n i) (id_to_name_map (mset scmp names n i) ids).
Proof.
  intros (S1 & S2 & A & B & C).
  pose proof (smset_sorted names n i S1) as S1'.
  destruct (id_to_name_map_find (mset scmp names n i) ids S2) as [S2' F].
  split; [exact S1'|]. split; [exact S2'|]. split; [|split].
  - intros m. rewrite sfind_mset by exact S1. rewrite last_of_snoc. cbn [fst snd]. rewrite <- A. destruct (n =? m); reflexivity.
  - intros m j Hm. pose proof (last_with_spec _ j S1') as L. rewrite F.
    destruct (last_with _ j) as [n'|].
    + exists n'. split; [reflexivity|]. split; [apply L|]. destruct L as [_ L]. apply L, Hm.
    + exfalso. apply (L m Hm).
  - intros j m. rewrite F. pose proof (last_with_spec _ j S1') as L. destruct (last_with _ j) as [n'|].
    + intros [= ->]. destruct L as [L _]. rewrite sfind_mset in L by exact S1. rewrite in_app_iff.
      destruct (String.eqb_spec n m) as [-> | N]; [injection L as ->; right; cbn; auto|].
      rewrite A in L. apply last_of_in in L. destruct L as ([n1 i1] & Hin & E). cbn [fst snd] in E.
      destruct (String.eqb_spec n1 m) as [-> |]; [|discriminate]. injection E as ->. auto.
    + intros Hj. rewrite in_app_iff. left. apply C, Hj.
Qed.

(** ** Robots *)
Definition name_pairs (h : list rcmd) : list (string * Z) :=
  flat_map (fun c => match c with RName n i => [(n, i)] | _ => [] end) h.
Definition fname_pairs (h : list rcmd) : list (string * Z) :=
  flat_map (fun c => match c with RForceName n i => [(n, i)] | _ => [] end) h.

Lemma last_pairs h n :
  last_of (fun p : string * Z => if fst p =? n then Some (snd p) else None) (name_pairs h) = last_of (sets_name n) h.
Proof.
  induction h as [|c h IH] using rev_ind; [reflexivity|]. unfold name_pairs in *.
  rewrite flat_map_app, last_of_snoc. destruct c; cbn [flat_map app sets_name]; rewrite ?app_nil_r; try exact IH.
  rewrite last_of_snoc. cbn [fst snd]. destruct (name =? n); [reflexivity|exact IH].
Qed.
Lemma last_fpairs h n :
  last_of (fun p : string * Z => if fst p =? n then Some (snd p) else None) (fname_pairs h) = last_of (sets_fname n) h.
Proof.
  induction h as [|c h IH] using rev_ind; [reflexivity|]. unfold fname_pairs in *.
  rewrite flat_map_app, last_of_snoc. destruct c; cbn [flat_map app sets_fname]; rewrite ?app_nil_r; try exact IH.
  rewrite last_of_snoc. cbn [fst snd]. destruct (name =? n); [reflexivity|exact IH].
Qed.

(** Parameters: the last value put at a path. *)
Definition path_eqb (a b : list string) : bool := if list_eq_dec string_dec a b then true else false.
Definition sets_param (path : list string) c :=
  match c with RParam p v => if path_eqb (pcomponents p) path then Some v else None | _ => None end.

(** [p] is a strict prefix of [q]. *)
Definition strict_prefix (p q : list string) : Prop := exists x r, q = (p ++ x :: r)%list.

Record robot_inv (h : list rcmd) (r : robot) : Prop := {
  ri_names : names_inv (name_pairs h) (ru_name_id r) (ru_id_name r);
  ri_fnames : names_inv (fname_pairs h) (fu_name_id (ru_force r)) (fu_id_name (ru_force r));
  ri_lsorted : msorted Z.compare (ru_limits r);
  ri_limits : forall i, mfind Z.compare (ru_limits r) i =
      match last_of (sets_limits i) h with Some (l, u) => Some (JointLimits l u) | None => None end;
  ri_flsorted : msorted Z.compare (fu_limits (ru_force r));
  ri_flimits : forall i, mfind Z.compare (fu_limits (ru_force r)) i =
      match last_of (sets_flimits i) h with Some (l, u) => Some (mkFL u l) | None => None end;
  ri_lh : fu_lh (ru_force r) = last_of (sets_fname "lh") h;
  ri_rh : fu_rh (ru_force r) = last_of (sets_fname "rh") h;
  ri_lf : fu_lf (ru_force r) = last_of (sets_fname "lf") h;
  ri_rf : fu_rf (ru_force r) = last_of (sets_fname "rf") h;
  ri_joints : ru_u2s r = or_else (last_of sets_joints h) [] /\
              ru_nb r = match last_of sets_joints h with Some u => Some (length u) | None => None end;
  ri_sole : ru_sole r = or_else (last_of sets_sole h) [];
  ri_sensor : ru_sensor r = or_else (last_of sets_sensor h) [];
  ri_lfoot : ru_lfoot r = or_else (last_of (sets_foot "Left") h) "";
  ri_rfoot : ru_rfoot r = or_else (last_of (sets_foot "Right") h) "";
  ri_lhand : ru_lhand r = or_else (last_of (sets_hand "Left") h) "";
  ri_rhand : ru_rhand r = or_else (last_of (sets_hand "Right") h) "";
  ri_imu : ru_imu r = or_else (last_of sets_imu h) "";
  ri_urdf : ru_urdf r = "" }.

Lemma robot_inv_start : robot_inv [] ru_start.
Proof. constructor; try reflexivity; try apply names_inv_start; try constructor; reflexivity. Qed.

Lemma eqb_sym_l a b : (a =? b) = (b =? a).
Proof. apply String.eqb_sym. Qed.

Lemma robot_inv_step h r c r' : robot_inv h r -> rapply r c = Ok r' -> robot_inv (h ++ [c]) r'.
Proof.
  intros I E. destruct I.
  destruct c; cbn [rapply] in E;
    try (unfold set_urdf_to_sot_doubles in E;
         match type of E with (if ?b then _ else _) = _ => destruct b; [|discriminate] end);
    try (match type of E with Ok (if ?a then _ else if ?b then _ else _) = _ =>
           destruct (String.eqb_spec side "Left") as [-> | NL];
           [|destruct (String.eqb_spec side "Right") as [-> | NR]] end);
    injection E as <-;
    unfold set_name_to_id, set_joint_limits_for_id, set_urdf_to_sot, ru_with_maps, ru_with_force, ru_with_feet,
      ru_with_joints, ru_with_misc, set_name_to_force_id, set_force_id_to_limits in *.
  all: constructor; unfold name_pairs, fname_pairs in *;
    rewrite ?flat_map_app; intros; rewrite ?last_of_snoc;
    repeat match goal with |- context [if ?a =? "rf" then _ else _] => destruct (String.eqb_spec a "rf") as [-> | ?]
      | |- context [if ?a =? "lf" then _ else _] => destruct (String.eqb_spec a "lf") as [-> | ?]
      | |- context [if ?a =? "lh" then _ else _] => destruct (String.eqb_spec a "lh") as [-> | ?]
      | |- context [if ?a =? "rh" then _ else _] => destruct (String.eqb_spec a "rh") as [-> | ?] end;
    cbn [sets_name sets_fname sets_limits sets_flimits sets_joints sets_sole sets_sensor sets_foot sets_hand sets_imu
         ru_force ru_sole ru_sensor ru_lfoot ru_rfoot ru_lhand ru_rhand ru_u2s ru_nb ru_name_id ru_id_name ru_limits
         ru_imu ru_urdf ru_tree fu_limits fu_name_id fu_id_name fu_lh fu_rh fu_lf fu_rf flat_map app or_else
         String.eqb Ascii.eqb Bool.eqb];
    rewrite ?app_nil_r; try assumption; try apply names_inv_step; try assumption;
    try (apply zmset_sorted; assumption); try (split; reflexivity); try reflexivity.
  all: try (rewrite zfind_mset by assumption;
            match goal with |- context [(?a =? ?b)%Z] => destruct (a =? b)%Z; [reflexivity|auto] end).
  all: repeat match goal with N : ?s <> ?c |- context [?s =? ?c] =>
         rewrite (proj2 (String.eqb_neq s c) N) end; auto.
Qed.

Lemma robot_inv_run h r : ofold rapply h ru_start = Ok r -> robot_inv h r.
Proof.
  revert r. induction h as [|c h IH] using rev_ind; intros r E.
  - injection E as <-. apply robot_inv_start.
  - rewrite ofold_app in E. destruct (ofold rapply h ru_start) as [r0| |] eqn:E0; cbn [bind] in E; try discriminate.
    cbn in E. destruct (rapply r0 c) as [r1| |] eqn:E1; cbn in E; try discriminate. injection E as <-.
    eapply robot_inv_step; [apply IH; reflexivity|exact E1].
Qed.

(** ** C62 *)
(** A name has the last id given to it, -1 if none. *)
Theorem name_has_last_id h r n : ofold rapply h ru_start = Ok r ->
  get_id_from_name r n = or_else (last_of (sets_name n) h) (-1)%Z /\
  force_id_from_name (ru_force r) n = or_else (last_of (sets_fname n) h) (-1)%Z.
Proof.
  intros E. apply robot_inv_run in E. destruct E.
  destruct ri_names0 as (_ & _ & A & _). destruct ri_fnames0 as (_ & _ & B & _).
  unfold get_id_from_name, force_id_from_name. rewrite A, B, last_pairs, last_fpairs.
  split; [destruct (last_of (sets_name n) h)|destruct (last_of (sets_fname n) h)]; reflexivity.
Qed.

(** The id of a known name has a name whose id it is: the last one in alphabetical order. *)
Theorem id_has_consistent_name h r n i : ofold rapply h ru_start = Ok r ->
  last_of (sets_name n) h = Some i ->
  let n' := get_name_from_id r i in
  get_id_from_name r n' = i /\ last_of (sets_name n') h = Some i /\ (n = n' \/ scmp n n' = Lt).
Proof.
  intros E Hn. apply robot_inv_run in E. destruct E. destruct ri_names0 as (_ & _ & A & B & _).
  assert (Hf : mfind scmp (ru_name_id r) n = Some i) by (now rewrite A, last_pairs).
  destruct (B n i Hf) as (n' & X & Y & Z). unfold get_name_from_id, get_id_from_name. rewrite X, Y.
  split; [reflexivity|]. split; [|exact Z]. now rewrite <- last_pairs, <- A.
Qed.
Theorem force_id_has_consistent_name h r n i : ofold rapply h ru_start = Ok r ->
  last_of (sets_fname n) h = Some i ->
  let n' := force_name_from_id (ru_force r) i in
  force_id_from_name (ru_force r) n' = i /\ last_of (sets_fname n') h = Some i /\ (n = n' \/ scmp n n' = Lt).
Proof.
  intros E Hn. apply robot_inv_run in E. destruct E. destruct ri_fnames0 as (_ & _ & A & B & _).
  assert (Hf : mfind scmp (fu_name_id (ru_force r)) n = Some i) by (now rewrite A, last_fpairs).
  destruct (B n i Hf) as (n' & X & Y & Z). unfold force_name_from_id, force_id_from_name. rewrite X, Y.
  split; [reflexivity|]. split; [|exact Z]. now rewrite <- last_fpairs, <- A.
Qed.

(** An id that was never given has no name; the name of an id was given that id at some time. *)
Theorem id_name_given h r i : ofold rapply h ru_start = Ok r ->
  get_name_from_id r i = "Joint name not found" \/ In (RName (get_name_from_id r i) i) h.
Proof.
  intros E. apply robot_inv_run in E. destruct E. destruct ri_names0 as (_ & _ & _ & _ & C).
  unfold get_name_from_id. destruct (mfind Z.compare (ru_id_name r) i) as [n|] eqn:F; [|auto]. right.
  apply C in F. unfold name_pairs in F. apply in_flat_map in F. destruct F as (c & Hc & Hin).
  destruct c; cbn in Hin; try contradiction. destruct Hin as [[= -> ->]|[]]. exact Hc.
Qed.

(** After a joint is given another id, its former id still has its name. *)
Theorem stale_name_refuted : exists h r n i,
  ofold rapply h ru_start = Ok r /\ get_name_from_id r i = n /\ get_id_from_name r n <> i /\
  get_id_from_name r n <> (-1)%Z.
Proof.
  exists [RName "knee" 3; RName "knee" 4]. eexists. exists "knee", 3%Z. split; [reflexivity|].
  vm_compute. repeat split; discriminate.
Qed.

(** The ids of hands and feet are the ones of the names lh, rh, lf, rf; before, they are not set. *)
Theorem extremities h r : ofold rapply h ru_start = Ok r ->
  fu_lh (ru_force r) = last_of (sets_fname "lh") h /\ fu_rh (ru_force r) = last_of (sets_fname "rh") h /\
  fu_lf (ru_force r) = last_of (sets_fname "lf") h /\ fu_rf (ru_force r) = last_of (sets_fname "rf") h.
Proof. intros E. apply robot_inv_run in E. destruct E. auto. Qed.

Example names_example : exists r,
  ofold rapply [RName "hip" 1; RName "knee" 2; RLimits 1 f0 f1; RName "ankle" 2] ru_start = Ok r /\
  get_id_from_name r "ankle" = 2%Z /\ get_name_from_id r 2 = "knee".
Proof. eexists. split; [reflexivity|]. vm_compute. auto. Qed.

(** ** C64 *)
Theorem limits_last h r i : ofold rapply h ru_start = Ok r ->
  let L := get_joint_limits_from_id r i in
  let F := force_limits_from_id (ru_force r) i in
  (jl_lower L, jl_upper L) = or_else (last_of (sets_limits i) h) (f0, f0) /\
  (fl_lower F, fl_upper F) = or_else (last_of (sets_flimits i) h) (repeat f0 6, repeat f0 6).
Proof.
  intros E. apply robot_inv_run in E. destruct E. cbv zeta.
  unfold get_joint_limits_from_id, force_limits_from_id. rewrite ri_limits0, ri_flimits0. split.
  - destruct (last_of (sets_limits i) h) as [[l u]|]; reflexivity.
  - destruct (last_of (sets_flimits i) h) as [[l u]|]; reflexivity.
Qed.

(** The range check, for limits and a value that are numbers (possibly
    infinite): in range exactly when it is between the last limits set.
    Missing: values and limits that are not numbers; false of the code
    there. *)
Theorem range_check_partial h r i l u q : ofold rapply h ru_start = Ok r ->
  last_of (sets_limits i) h = Some (l, u) -> fnan l = false -> fnan u = false -> fnan q = false ->
  joint_in_range r i q = fleb l q && fleb q u.
Proof.
  intros E Hl Nl Nu Nq. destruct (limits_last h r i E) as [A _]. rewrite Hl in A. cbv zeta in A. cbn in A.
  injection A as A1 A2. unfold joint_in_range. rewrite A1, A2.
  rewrite (fltb_fleb q l), (fltb_fleb u q) by assumption.
  destruct (fleb l q), (fleb q u); reflexivity.
Qed.

(** A value that is not a number is reported in range whatever the limits. *)
Theorem range_check_nan_refuted r i : joint_in_range r i S754_nan = true.
Proof.
  unfold joint_in_range, SFltb.
  rewrite fcompare_nan_l, fcompare_nan_r. reflexivity.
Qed.

(** A joint without limits is only in range at zero. *)
Theorem range_check_unset h r i q : ofold rapply h ru_start = Ok r ->
  last_of (sets_limits i) h = None -> fnan q = false ->
  joint_in_range r i q = fleb f0 q && fleb q f0.
Proof.
  intros E Hl Nq. destruct (limits_last h r i E) as [A _]. rewrite Hl in A. cbv zeta in A. cbn in A.
  injection A as A1 A2. unfold joint_in_range. rewrite A1, A2.
  rewrite (fltb_fleb q f0), (fltb_fleb f0 q) by (assumption || reflexivity).
  destruct (fleb f0 q), (fleb q f0); reflexivity.
Qed.

(** The other parameters read back as last set. *)
Theorem robot_reads_back h r : ofold rapply h ru_start = Ok r ->
  ru_sole r = or_else (last_of sets_sole h) [] /\ ru_sensor r = or_else (last_of sets_sensor h) [] /\
  ru_lfoot r = or_else (last_of (sets_foot "Left") h) "" /\ ru_rfoot r = or_else (last_of (sets_foot "Right") h) "" /\
  ru_lhand r = or_else (last_of (sets_hand "Left") h) "" /\ ru_rhand r = or_else (last_of (sets_hand "Right") h) "" /\
  ru_imu r = or_else (last_of sets_imu h) "" /\
  ru_u2s r = or_else (last_of sets_joints h) [] /\
  ru_nb r = match last_of sets_joints h with Some u => Some (length u) | None => None end.
Proof. intros E. apply robot_inv_run in E. destruct E. intuition. Qed.

Example range_example : exists r,
  ofold rapply [RLimits 3 f0 f1; RLimits 3 f1 f2; RLimits 4 f0 f0] ru_start = Ok r /\
  joint_in_range r 3 f1 = true /\ joint_in_range r 3 f0 = false.
Proof. eexists. split; [reflexivity|]. vm_compute. auto. Qed.

(** ** C63: joint orders *)
(** The joint map is a permutation of 0 .. n-1. *)
Definition is_perm (u : list Z) : Prop := Permutation u (map Z.of_nat (seq 0 (length u))).

Section Joints.
Context {A : Type} (d : A).

Lemma perm_nat u : is_perm u -> exists p, u = map Z.of_nat p /\ length p = length u /\ Permutation p (seq 0 (length u)).
Proof.
  intros H. exists (map Z.to_nat u). assert (U : forall x, In x u -> (0 <= x)%Z).
  { intros x Hx. apply (Permutation_in _ H) in Hx. rewrite in_map_iff in Hx. destruct Hx as (k & <- & _). lia. }
  split; [|split].
  - rewrite map_map. rewrite <- (map_id u) at 1. apply map_ext_in. intros x Hx. rewrite Z2Nat.id; auto.
  - apply map_length.
  - apply (Permutation_map Z.to_nat) in H. rewrite map_map in H.
    rewrite (map_ext (fun x => Z.to_nat (Z.of_nat x)) (fun x => x)), map_id in H; [exact H|].
    intros x. apply Nat2Z.id.
Qed.

Lemma zget_nat (v : list A) k : zget v (Z.of_nat k) = vget v k.
Proof. unfold zget. destruct (Z.ltb_spec (Z.of_nat k) 0); [lia|]. now rewrite Nat2Z.id. Qed.
Lemma zset_nat (v : list A) k x : zset v (Z.of_nat k) x = vset v k x.
Proof. unfold zset. destruct (Z.ltb_spec (Z.of_nat k) 0); [lia|]. now rewrite Nat2Z.id. Qed.

Lemma u2s_spec r p q s : ru_u2s r = map Z.of_nat p -> ru_nb r = Some (length p) ->
  Permutation p (seq 0 (length p)) -> (0 < length p)%nat -> length q = length p -> length s = length p ->
  exists s', joints_urdf_to_sot r q s = Ok (true, s') /\ length s' = length p /\
    forall i, (i < length p)%nat -> nth (nth i p 0%nat) s' d = nth i q d.
Proof.
  intros Hu Hn Hp H0 Lq Ls. unfold joints_urdf_to_sot. rewrite Hn.
  destruct (length p) as [|n] eqn:En; [lia|]. rewrite Lq, Ls, Nat.eqb_refl. cbn [andb].
  assert (ND : NoDup p) by (apply (Permutation_NoDup (Permutation_sym Hp)), seq_NoDup).
  assert (Rg : forall i, (i < S n)%nat -> (nth i p 0 < S n)%nat).
  { intros i Hi. assert (X : In (nth i p 0%nat) p) by (apply nth_In; lia).
    apply (Permutation_in _ Hp) in X. apply in_seq in X. lia. }
  match goal with |- context [ofor_range 0 ?hi ?b ?s0] =>
    destruct (ofor_range_ind (fun k v => length v = S n /\
      forall i, (i < k)%nat -> nth (nth i p 0%nat) v d = nth i q d) 0 hi b s0) as (v & E & L & P) end.
  - lia.
  - split; [exact Ls|lia].
  - intros k v Hk (L & P). rewrite (vget_ok q k d) by lia. rewrite Hu.
    rewrite (vget_ok (map Z.of_nat p) k 0%Z) by (rewrite map_length; lia). cbn [bind].
    change 0%Z with (Z.of_nat 0). rewrite map_nth, zset_nat. unfold vset.
    pose proof (Rg k ltac:(lia)) as Rk.
    destruct (Nat.ltb_spec (nth k p 0%nat) (length v)); [|lia]. eexists; split; [reflexivity|].
    rewrite upd_length. split; [exact L|]. intros i Hi. rewrite nth_upd.
    destruct (Nat.eqb_spec (nth k p 0%nat) (nth i p 0%nat)) as [Eq|N].
    + destruct (Nat.ltb_spec (nth k p 0%nat) (length v)); [|lia]. cbn [andb].
      assert (i = k). { apply (proj1 (NoDup_nth p 0%nat) ND); lia. } now subst.
    + cbn [andb]. apply P. destruct (Nat.eq_dec i k); [subst; congruence|lia].
  - rewrite E. cbn [bind]. exists v. auto.
Qed.

Lemma s2u_spec r p q s : ru_u2s r = map Z.of_nat p -> ru_nb r = Some (length p) ->
  Permutation p (seq 0 (length p)) -> (0 < length p)%nat -> length q = length p -> length s = length p ->
  exists q', joints_sot_to_urdf r s q = Ok (true, q') /\ length q' = length p /\
    forall i, (i < length p)%nat -> nth i q' d = nth (nth i p 0%nat) s d.
Proof.
  intros Hu Hn Hp H0 Lq Ls. unfold joints_sot_to_urdf. rewrite Hn, Lq, Ls, Nat.eqb_refl. cbn [andb].
  assert (Rg : forall i, (i < length p)%nat -> (nth i p 0 < length p)%nat).
  { intros i Hi. assert (X : In (nth i p 0%nat) p) by (apply nth_In; lia).
    apply (Permutation_in _ Hp) in X. apply in_seq in X. lia. }
  destruct (length p) as [|n] eqn:En; [lia|].
  match goal with |- context [ofor_range 0 ?hi ?b ?s0] =>
    destruct (ofor_range_ind (fun k v => length v = S n /\
      forall i, (i < k)%nat -> nth i v d = nth (nth i p 0%nat) s d) 0 hi b s0) as (v & E & L & P) end.
  - lia.
  - split; [exact Lq|lia].
  - intros k v Hk (L & P). rewrite Hu.
    rewrite (vget_ok (map Z.of_nat p) k 0%Z) by (rewrite map_length; lia). cbn [bind].
    change 0%Z with (Z.of_nat 0). rewrite map_nth, zget_nat.
    rewrite (vget_ok s _ d) by (specialize (Rg k); lia). cbn [bind]. unfold vset.
    destruct (Nat.ltb_spec k (length v)); [|lia]. eexists; split; [reflexivity|].
    rewrite upd_length. split; [exact L|]. intros i Hi. rewrite nth_upd.
    destruct (Nat.eqb_spec k i) as [<-|N].
    + destruct (Nat.ltb_spec k (length v)); [|lia]. reflexivity.
    + cbn [andb]. apply P. lia.
  - rewrite E. cbn [bind]. exists v. auto.
Qed.

(** Both round trips, whatever the previous contents of the output vectors. *)
Theorem joints_roundtrip h r u :
  ofold rapply h ru_start = Ok r -> last_of sets_joints h = Some u -> is_perm u -> u <> [] ->
  forall q s b, length q = length u -> length s = length u -> length b = length u ->
  (exists s', joints_urdf_to_sot r q s = Ok (true, s') /\ joints_sot_to_urdf r s' b = Ok (true, q) /\
     forall i, (i < length u)%nat -> nth (Z.to_nat (nth i u 0%Z)) s' d = nth i q d) /\
  (exists q', joints_sot_to_urdf r s q = Ok (true, q') /\ joints_urdf_to_sot r q' b = Ok (true, s)).
Proof.
  intros E Hu Hp H0 q s b Lq Ls Lb.
  destruct (robot_reads_back h r E) as (_ & _ & _ & _ & _ & _ & _ & R1 & R2). rewrite Hu in R1, R2. cbn in R1, R2.
  destruct (perm_nat u Hp) as (p & -> & Lp & Pp).
  rewrite map_length in *. assert (0 < length p)%nat by (destruct p; [exfalso; apply H0; reflexivity|cbn; lia]).
  split.
  - destruct (u2s_spec r p q s) as (s' & E1 & L1 & N1); try assumption.
    destruct (s2u_spec r p b s') as (q' & E2 & L2 & N2); try assumption.
    exists s'. split; [exact E1|]. split.
    + rewrite E2. do 2 f_equal. apply (list_eq_nth d); [congruence|]. intros i Hi. rewrite N2, N1 by congruence. reflexivity.
    + intros i Hi. change 0%Z with (Z.of_nat 0). rewrite map_nth, Nat2Z.id. apply N1, Hi.
  - destruct (s2u_spec r p q s) as (q' & E1 & L1 & N1); try assumption.
    destruct (u2s_spec r p q' b) as (s' & E2 & L2 & N2); try assumption.
    exists q'. split; [exact E1|]. rewrite E2. do 2 f_equal. apply (list_eq_nth d); [congruence|]. intros j Hj.
    assert (X : In j p). { apply (Permutation_in _ (Permutation_sym Pp)), in_seq. lia. }
    destruct (In_nth p j 0%nat X) as (i & Hi & <-). rewrite N2, N1 by exact Hi. reflexivity.
Qed.
End Joints.

(** A joint map with the same index twice loses a joint. *)
Theorem joints_duplicate_refuted : exists h r,
  ofold rapply h ru_start = Ok r /\
  joints_urdf_to_sot r [1; 2]%nat [0; 0]%nat = Ok (true, [2; 0]%nat) /\
  joints_sot_to_urdf r [2; 0]%nat [0; 0]%nat = Ok (true, [2; 2]%nat).
Proof. exists [RJoints [0; 0]%Z]. eexists. split; [reflexivity|]. vm_compute. auto. Qed.

(** An index out of range is accepted by the setter and is a write out of bounds; a negative
    number is already undefined in the setter; without any map the number of joints is
    indeterminate (the test for a null number of joints does not protect). *)
Theorem joints_undefined :
  (exists h r, ofold rapply h ru_start = Ok r /\ joints_urdf_to_sot r [1; 2]%nat [0; 0]%nat = UB) /\
  rapply ru_start (RJoints [-1]%Z) = UB /\
  joints_urdf_to_sot ru_start [1]%nat [0]%nat = UB /\ joints_sot_to_urdf ru_start [1]%nat [0]%nat = UB.
Proof.
  split; [exists [RJoints [0; 2]%Z]; eexists; split; [reflexivity|vm_compute; reflexivity]|].
  repeat split.
Qed.

(** With an empty map the conversions report a failure and leave the output unchanged. *)
Theorem joints_empty h r {A} (q s : list A) :
  ofold rapply h ru_start = Ok r -> last_of sets_joints h = Some [] -> q = [] ->
  joints_urdf_to_sot r q s = Ok (false, s) /\ (s = [] -> joints_sot_to_urdf r s q = Ok (false, q)).
Proof.
  intros E Hu ->. destruct (robot_reads_back h r E) as (_ & _ & _ & _ & _ & _ & _ & _ & R2). rewrite Hu in R2.
  cbn in R2. unfold joints_urdf_to_sot, joints_sot_to_urdf. rewrite R2. split; [reflexivity|]. intros ->. reflexivity.
Qed.

(** The sizes of the vectors are not tested: any other size is undefined behaviour. *)
Theorem joints_sizes_unchecked h r u {A} (q s : list A) :
  ofold rapply h ru_start = Ok r -> last_of sets_joints h = Some u ->
  length q <> length u \/ length s <> length u ->
  (u <> [] -> joints_urdf_to_sot r q s = UB) /\ joints_sot_to_urdf r s q = UB.
Proof.
  intros E Hu H. destruct (robot_reads_back h r E) as (_ & _ & _ & _ & _ & _ & _ & _ & R2). rewrite Hu in R2.
  cbn in R2. unfold joints_urdf_to_sot, joints_sot_to_urdf. rewrite R2.
  destruct (Nat.eqb_spec (length q) (length u)), (Nat.eqb_spec (length s) (length u)); try (exfalso; lia);
    (split; [intros N; destruct u; [congruence|]; reflexivity|reflexivity]).
Qed.

Example joints_example : exists r, ofold rapply [RJoints [2; 0; 1]%Z] ru_start = Ok r /\ is_perm [2; 0; 1]%Z /\
  joints_urdf_to_sot r ["a"; "b"; "c"] ["x"; "y"; "z"] = Ok (true, ["b"; "c"; "a"]).
Proof.
  eexists. split; [reflexivity|]. split; [|vm_compute; reflexivity].
  unfold is_perm. cbn. apply (Permutation_trans (l' := [0; 2; 1]%Z)); [constructor|]. constructor. constructor.
Qed.

(** ** C85: parameters *)
Lemma pchild_upd ch k f k' : pchild (pupd_child ch k f) k' =
  if k =? k' then Some (f (or_else (pchild ch k) pempty)) else pchild ch k'.
Proof.
  induction ch as [|[k0 t] ch IH]; cbn.
  - rewrite (eqb_sym_l k' k). destruct (String.eqb_spec k k'); reflexivity.
  - destruct (String.eqb_spec k k0) as [-> | N]; cbn.
    + rewrite (eqb_sym_l k' k0). destruct (String.eqb_spec k0 k'); reflexivity.
    + destruct (String.eqb_spec k' k0) as [-> | N'].
      * destruct (String.eqb_spec k k0); [congruence|]. reflexivity.
      * exact IH.
Qed.

Lemma pget_pput_same p v : forall t, pget p (pput p v t) = Some v.
Proof.
  induction p as [|k p IH]; intros [d ch]; [reflexivity|]. cbn. rewrite pchild_upd, String.eqb_refl. apply IH.
Qed.

Lemma pget_empty p : p <> [] -> pget p pempty = None.
Proof. destruct p; [congruence|reflexivity]. Qed.

Lemma pget_pput_other p v : forall p' t, p' <> p ->
  (strict_prefix p' p -> pget p' (pput p v t) = Some (or_else (pget p' t) "")) /\
  (~ strict_prefix p' p -> pget p' (pput p v t) = pget p' t).
Proof.
  induction p as [|k p IH]; intros p' [d ch] Hne.
  - split; [intros (x & r & E); destruct p'; discriminate|]. intros _.
    destruct p' as [|k' p']; [congruence|reflexivity].
  - destruct p' as [|k' p'].
    + split; [reflexivity|]. intros H. exfalso. apply H. exists k, p. reflexivity.
    + cbn. rewrite pchild_upd. destruct (String.eqb_spec k k') as [<-|N].
      * assert (Hne' : p' <> p) by congruence.
        assert (PP : strict_prefix (k :: p') (k :: p) <-> strict_prefix p' p).
        { split; intros (x & r & E); exists x, r; [injection E as E; exact E|]. cbn. congruence. }
        destruct (pchild ch k) as [t|]; cbn [or_else].
        -- destruct (IH p' t Hne') as [A B]. split; [intros H; apply A, PP, H|intros H; apply B; rewrite <- PP; exact H].
        -- destruct (IH p' pempty Hne') as [A B]. split.
           ++ intros H. rewrite A by (apply PP, H). destruct p'; reflexivity.
           ++ intros H. rewrite B by (rewrite <- PP; exact H). apply pget_empty. intros ->. apply H.
              destruct p as [|x p]; [congruence|]. exists x, p. reflexivity.
      * split; [|reflexivity]. intros (x & r & E). injection E as E1 _. congruence.
Qed.

(** After any history of commands the value of a parameter is the last one set under a path with the
    same components; a path on the way to a set parameter, and the root, holds the empty string; any
    other path does not exist. *)
Theorem parameter_value h r path : ofold rapply h ru_start = Ok r ->
  (forall v, last_of (sets_param path) h = Some v -> pget path (ru_tree r) = Some v) /\
  (last_of (sets_param path) h = None ->
   ((path = [] \/ exists p v, In (RParam p v) h /\ strict_prefix path (pcomponents p)) -> pget path (ru_tree r) = Some "") /\
   (~ (path = [] \/ exists p v, In (RParam p v) h /\ strict_prefix path (pcomponents p)) -> pget path (ru_tree r) = None)).
Proof.
  revert r. induction h as [|c h IH] using rev_ind; intros r E.
  - injection E as <-. split; [discriminate|]. intros _. split.
    + intros [-> |(p & v & [] & _)]. reflexivity.
    + intros H. destruct path; [exfalso; apply H; auto|reflexivity].
  - rewrite ofold_app in E. destruct (ofold rapply h ru_start) as [r0| |] eqn:E0; cbn [bind] in E; try discriminate.
    cbn in E. destruct (rapply r0 c) as [r1| |] eqn:E1; cbn in E; try discriminate. injection E as <-.
    destruct (IH r0 eq_refl) as [A B]. clear IH.
    assert (Keep : (forall p v, c <> RParam p v) -> ru_tree r1 = ru_tree r0).
    { intros Hc. destruct c; cbn [rapply] in E1;
        try (unfold set_urdf_to_sot_doubles in E1;
             match type of E1 with (if ?b then _ else _) = _ => destruct b; [|discriminate] end);
        try (match type of E1 with Ok (if ?a then _ else if ?b then _ else _) = _ =>
           destruct a; [|destruct b] end); try (injection E1 as <-; reflexivity).
      exfalso. now apply (Hc path0 value). }
    rewrite last_of_snoc.
    assert (Case : (exists p v, c = RParam p v) \/ (forall p v, c <> RParam p v)).
    { destruct c; try (right; intros; discriminate). left. eauto. }
    destruct Case as [(p & v & ->)|Hc].
    + cbn [rapply] in E1. injection E1 as <-. cbn [ru_tree ru_with_misc sets_param]. unfold path_eqb.
      destruct (list_eq_dec string_dec (pcomponents p) path) as [<-|N].
      * split; [intros v' [= ->]; apply pget_pput_same|discriminate].
      * destruct (pget_pput_other (pcomponents p) v path (ru_tree r0) (not_eq_sym N)) as [P1 P2].
        assert (Dec : strict_prefix path (pcomponents p) \/ ~ strict_prefix path (pcomponents p)).
        { clear. revert path. induction (pcomponents p) as [|k q IH]; intros [|k' path].
          - right. intros (x & r & H). discriminate.
          - right. intros (x & r & H). discriminate.
          - left. exists k, q. reflexivity.
          - destruct (string_dec k k') as [<-|N]; [|right; intros (x & r & H); injection H; congruence].
            destruct (IH path) as [(x & r & ->)|H]; [left; exists x, r; reflexivity|].
            right. intros (x & r & E). apply H. exists x, r. injection E as E. exact E. }
        split.
        -- intros v' Hv'. destruct Dec as [D|D]; [rewrite P1 by exact D|rewrite P2 by exact D]; rewrite (A v' Hv'); reflexivity.
        -- intros Hn. destruct (B Hn) as [B1 B2]. split.
           ++ intros Hx. destruct Dec as [D|D].
              ** rewrite P1 by exact D.
                 assert (PD : (path = [] \/ exists p v, In (RParam p v) h /\ strict_prefix path (pcomponents p)) \/
                              pget path (ru_tree r0) = None \/ exists s, pget path (ru_tree r0) = Some s) by
                   (destruct (pget path (ru_tree r0)); [right; right; eauto|right; left; reflexivity]).
                 destruct (pget path (ru_tree r0)) as [s|] eqn:G; [|reflexivity]. cbn.
                 assert (K : ~ ~ (path = [] \/ exists p v, In (RParam p v) h /\ strict_prefix path (pcomponents p))).
                 { intros K. specialize (B2 K). discriminate. }
                 destruct (string_dec s "") as [-> | Ns]; [reflexivity|]. exfalso. apply K. intros K'. specialize (B1 K'). congruence.
              ** rewrite P2 by exact D. apply B1. destruct Hx as [Hx|(p1 & v1 & Hin & Hp)]; [left; exact Hx|]. right.
                 rewrite in_app_iff in Hin. destruct Hin as [Hin|[Hin|[]]]; [eauto|]. injection Hin as <- <-. contradiction.
           ++ intros Hx. destruct Dec as [D|D].
              ** exfalso. apply Hx. right. exists p, v. rewrite in_app_iff. cbn. auto.
              ** rewrite P2 by exact D. apply B2. intros [K|(p1 & v1 & Hin & Hp)]; apply Hx; [left; exact K|]. right.
                 exists p1, v1. rewrite in_app_iff. auto.
    + rewrite (Keep Hc).
      replace (sets_param path c) with (@None string) by (destruct c; try reflexivity; exfalso; eapply Hc; reflexivity).
      split; [exact A|]. intros Hn. destruct (B Hn) as [B1 B2]. split.
      * intros [K|(p1 & v1 & Hin & Hp)]; apply B1; [left; exact K|right].
        rewrite in_app_iff in Hin. destruct Hin as [Hin|[Hin|[]]]; [eauto|]. exfalso. eapply Hc. exact Hin.
      * intros K. apply B2. intros [K'|(p1 & v1 & Hin & Hp)]; apply K; [left; exact K'|]. right.
        exists p1, v1. rewrite in_app_iff. auto.
Qed.

(** Two names are the same parameter when they differ by a final separator only. *)
Lemma pcomponents_aux_app s cur : s <> "" ->
  pcomponents_aux (s ++ "/") cur = pcomponents_aux s cur \/ exists t, s = t ++ "/".
Proof.
  revert cur. induction s as [|c s IH]; intros cur Hs; [congruence|].
  destruct s as [|c' s].
  - cbn. destruct (Ascii.eqb_spec c "/") as [-> | N]; [right; exists ""; reflexivity|]. left. reflexivity.
  - cbn [append pcomponents_aux]. destruct (Ascii.eqb c "/").
    + destruct (IH "" ltac:(discriminate)) as [E|(t & E)].
      * left. f_equal. exact E.
      * right. exists (String c t). cbn. now rewrite <- E.
    + destruct (IH (cur ++ String c "") ltac:(discriminate)) as [E|(t & E)].
      * left. exact E.
      * right. exists (String c t). cbn. now rewrite <- E.
Qed.

Theorem parameter_alias s : s <> "" -> (forall t, s <> t ++ "/") -> pcomponents (s ++ "/") = pcomponents s.
Proof.
  intros Hs Ht. unfold pcomponents. destruct s as [|c s]; [congruence|]. cbn [append].
  change (String c (s ++ "/")) with (String c s ++ "/").
  destruct (pcomponents_aux_app (String c s) "" Hs) as [E|(t & E)]; [exact E|]. exfalso. apply (Ht t E).
Qed.

Example parameter_example : exists r,
  ofold rapply [RParam "a/b" "1"; RParam "a/c" "2"; RParam "a/b/" "3"] ru_start = Ok r /\
  pget (pcomponents "a/b") (ru_tree r) = Some "3" /\ pget (pcomponents "a") (ru_tree r) = Some "" /\
  pget (pcomponents "b") (ru_tree r) = None.
Proof. eexists. split; [reflexivity|]. vm_compute. auto. Qed.

Print Assumptions name_has_last_id.
Print Assumptions id_has_consistent_name.
Print Assumptions force_id_has_consistent_name.
Print Assumptions id_name_given.
Print Assumptions stale_name_refuted.
Print Assumptions extremities.
Print Assumptions limits_last.
Print Assumptions range_check_partial.
Print Assumptions range_check_nan_refuted.
Print Assumptions range_check_unset.
Print Assumptions robot_reads_back.
Print Assumptions joints_roundtrip.
Print Assumptions joints_duplicate_refuted.
Print Assumptions joints_undefined.
Print Assumptions joints_empty.
Print Assumptions parameter_value.
Print Assumptions parameter_alias.
Print Assumptions joints_sizes_unchecked.
