(** Properties of the text ForceUtil prints (C139). *)
From Coq Require Import String Ascii List Arith ZArith Bool Lia Sorting.Sorted.
From Verif Require Import Base SMap Float_Facts Robot_Model RefName_Model StackText_Model ForceText_Model.
Import ListNotations.
Local Open Scope string_scope.
Local Open Scope list_scope.

(** ** Specification: the last value a history gave. *)
Fixpoint latest {A} (f : fucall -> option A) (h : list fucall) : option A :=
  match h with [] => None | c :: r => match latest f r with Some a => Some a | None => f c end end.
Definition gives_id (n : string) (c : fucall) : option Z := match c with FName m i => if (m =? n)%string then Some i else None | _ => None end.
Definition gives_limits (i : Z) (c : fucall) : option flimits := match c with FLimits j lo up => if (j =? i)%Z then Some (mkFL up lo) else None | _ => None end.
Definition letters (s : side) : string := match s with LeftHand => "lh" | RightHand => "rh" | LeftFoot => "lf" | RightFoot => "rf" end.
Definition side_eqb (a b : side) : bool := match a, b with LeftHand, LeftHand | RightHand, RightHand | LeftFoot, LeftFoot | RightFoot, RightFoot => true | _, _ => false end.
(** The id of an extremity is set by its setter, and by naming it. *)
Definition gives_side (s : side) (c : fucall) : option Z :=
  match c with FName m i => if (m =? letters s)%string then Some i else None | FSide t i => if side_eqb t s then Some i else None | _ => None end.

Lemma latest_snoc {A} (f : fucall -> option A) h c : latest f (h ++ [c]) = match f c with Some a => Some a | None => latest f h end.
Proof. induction h as [|d h IH]; cbn; [destruct (f c); reflexivity|]. rewrite IH. destruct (f c); reflexivity. Qed.
Definition side_of (s : side) (f : forceutil) : option Z :=
  match s with LeftHand => fu_lh f | RightHand => fu_rh f | LeftFoot => fu_lf f | RightFoot => fu_rf f end.
Lemma fu_snoc h c : fu_run (h ++ [c]) = fu_exec (fu_run h) c.
Proof. unfold fu_run. rewrite fold_left_app. reflexivity. Qed.
Lemma exec_maps f n i : fu_limits (set_name_to_force_id f n i) = fu_limits f /\ fu_name_id (set_name_to_force_id f n i) = mset scmp (fu_name_id f) n i.
Proof. unfold set_name_to_force_id. destruct (n =? "rf")%string, (n =? "lf")%string, (n =? "lh")%string, (n =? "rh")%string; split; reflexivity. Qed.
Lemma exec_side f n i s : side_of s (set_name_to_force_id f n i) = if (n =? letters s)%string then Some i else side_of s f.
Proof.
  unfold set_name_to_force_id. destruct (String.eqb_spec n "rf") as [->|A]; [destruct s; reflexivity|]. destruct (String.eqb_spec n "lf") as [->|B]; [destruct s; reflexivity|].
  destruct (String.eqb_spec n "lh") as [->|C]; [destruct s; reflexivity|]. destruct (String.eqb_spec n "rh") as [->|D]; [destruct s; reflexivity|].
  destruct s; cbn; match goal with |- _ = if ?b then _ else _ => destruct b eqn:E end; try reflexivity; apply String.eqb_eq in E; congruence.
Qed.
Lemma side_run h s : side_of s (fu_run h) = latest (gives_side s) h.
Proof.
  induction h as [|c h IH] using rev_ind; [destruct s; reflexivity|]. rewrite fu_snoc, latest_snoc. destruct c as [n i|i lo up|t i]; cbn [fu_exec gives_side].
  - rewrite exec_side, IH. destruct (n =? letters s)%string; reflexivity.
  - rewrite <- IH. destruct s; reflexivity.
  - destruct t, s; cbn; try reflexivity; exact IH.
Qed.
Lemma maps_run h : msorted scmp (fu_name_id (fu_run h)) /\ msorted Z.compare (fu_limits (fu_run h)) /\
  (forall n, mfind scmp (fu_name_id (fu_run h)) n = latest (gives_id n) h) /\ (forall i, mfind Z.compare (fu_limits (fu_run h)) i = latest (gives_limits i) h).
Proof.
  induction h as [|c h (S1 & S2 & I1 & I2)] using rev_ind; [repeat split; constructor|]. rewrite fu_snoc. destruct c as [n i|i lo up|t i]; cbn [fu_exec].
  - destruct (exec_maps (fu_run h) n i) as (-> & ->). split; [apply mset_sorted; auto using scmp_eq, scmp_antisym; apply scmp_trans|]. split; [exact S2|]. split.
    + intros m. rewrite latest_snoc. cbn. rewrite mfind_mset; auto using scmp_eq, scmp_antisym; [|apply scmp_trans]. rewrite I1.
      destruct (String.eqb_spec n m) as [->|N]; [rewrite (proj2 (scmp_eq m m) eq_refl); reflexivity|]. destruct (scmp m n) eqn:C; try reflexivity. apply scmp_eq in C. congruence.
    + intros j. rewrite latest_snoc. cbn. apply I2.
  - cbn. split; [exact S1|]. split; [apply mset_sorted; auto using zcmp_eq, zcmp_antisym; apply zcmp_trans|]. split; [intros m; rewrite latest_snoc; apply I1|].
    intros j. rewrite latest_snoc. cbn. rewrite mfind_mset; auto using zcmp_eq, zcmp_antisym; [|apply zcmp_trans]. rewrite I2.
    destruct (Z.eqb_spec i j) as [->|N]; [rewrite Z.compare_refl; reflexivity|]. destruct (Z.compare_spec j i); try reflexivity. congruence.
  - assert (E : fu_limits (set_force_id (fu_run h) t i) = fu_limits (fu_run h) /\ fu_name_id (set_force_id (fu_run h) t i) = fu_name_id (fu_run h)) by (destruct t; split; reflexivity).
    destruct E as (-> & ->). split; [exact S1|]. split; [exact S2|]. split; [intros n|intros j]; rewrite latest_snoc; cbn; auto.
Qed.
Lemma sassoc (a b c : string) : ((a ++ b) ++ c = a ++ b ++ c)%string.
Proof. induction a; cbn; congruence. Qed.
Lemma emit_text {A} (g : A -> string) l : forall os, (emit g l os = os ++ String.concat "" (map g l))%string.
Proof.
  unfold emit. induction l as [|s l IH]; intros os; cbn [fold_left map]; [cbn; induction os; cbn; congruence|].
  rewrite IH, sassoc. f_equal. destruct l; cbn; [|reflexivity]. induction (g s); cbn; congruence.
Qed.

Lemma sorted_z {V} (m : list (Z * V)) : msorted Z.compare m -> StronglySorted (fun a b => fst a < fst b)%Z m.
Proof. unfold msorted. induction 1 as [|a m S IH F]; constructor; auto. Qed.

Section Text.
Variable pz : Z -> string.
Variable pv : list float -> string.

(** Once the four extremities have an id, the text lists: the limits last given for each id, by increasing id; the names with the id last
    given to each, in the order of the names; the last ids of the extremities.
    Missing: an extremity never set, and the id of each limits, see the findings below. *)
Theorem force_display_text_partial h lh rh lf rf :
  latest (gives_side LeftHand) h = Some lh -> latest (gives_side RightHand) h = Some rh ->
  latest (gives_side LeftFoot) h = Some lf -> latest (gives_side RightFoot) h = Some rf ->
  exists (L : list (Z * flimits)) (N : list (string * Z)) (back : string),
    StronglySorted (fun a b => fst a < fst b)%Z L /\ (forall i l, In (i, l) L <-> latest (gives_limits i) h = Some l) /\
    StronglySorted (fun a b => String.compare (fst a) (fst b) = Lt) N /\ (forall n i, In (n, i) N <-> latest (gives_id n) h = Some i) /\
    force_display pz pv (fu_run h) = Ok ("Force Id to limits " ++ endl ++
      String.concat "" (map (fun x => "Lower limits:" ++ endl ++ pv (fl_lower (snd x)) ++ endl ++ "Upper Limits:" ++ endl ++ pv (fl_upper (snd x)) ++ endl) L) ++
      "Name to force id:" ++ endl ++ String.concat "" (map (fun x => "(" ++ fst x ++ "," ++ pz (snd x) ++ ") ") N) ++ endl ++
      "Force id to Name:" ++ endl ++ back ++ endl ++ "Index for force sensors:" ++ endl ++
      "Left Hand (" ++ pz lh ++ ") ,Right Hand (" ++ pz rh ++ ") ,Left Foot (" ++ pz lf ++ ") ,Right Foot (" ++ pz rf ++ ") " ++ endl)%string.
Proof.
  intros A B C D. destruct (maps_run h) as (S1 & S2 & I1 & I2). exists (fu_limits (fu_run h)), (fu_name_id (fu_run h)).
  exists (String.concat "" (map (fun p => pair_text (pz (fst p)) (snd p)) (fu_id_name (fu_run h)))).
  split; [apply sorted_z, S2|].
  split; [intros i l; rewrite <- (mfind_in _ _ Z.compare zcmp_eq zcmp_antisym _ i l S2), I2; reflexivity|].
  split; [exact S1|]. split; [intros n i; rewrite <- (mfind_in _ _ scmp scmp_eq scmp_antisym _ n i S1), I1; reflexivity|].
  rewrite <- side_run in A, B, C, D. cbn in A, B, C, D. unfold force_display. rewrite A, B, C, D. cbn [bind index_text]. f_equal.
  rewrite !emit_text, !sassoc. reflexivity.
Qed.
(** Finding: before that, printing reads ids that have no value. *)
Theorem force_display_undefined_refuted h :
  force_display pz pv (fu_run h) = UB <-> exists s, latest (gives_side s) h = None.
Proof.
  split.
  - intros H. unfold force_display in H. destruct (fu_lh (fu_run h)) eqn:A; [|exists LeftHand; rewrite <- side_run; exact A].
    destruct (fu_rh (fu_run h)) eqn:B; [|exists RightHand; rewrite <- side_run; exact B]. destruct (fu_lf (fu_run h)) eqn:C; [|exists LeftFoot; rewrite <- side_run; exact C].
    destruct (fu_rf (fu_run h)) eqn:D; [|exists RightFoot; rewrite <- side_run; exact D]. cbn in H. discriminate H.
  - intros (s & N). rewrite <- side_run in N. unfold force_display. destruct s; cbn in N; rewrite N; cbn [bind index_text]; try reflexivity;
      repeat match goal with |- context [index_text _ ?x] => destruct x; cbn [bind index_text] end; reflexivity.
Qed.
(** Finding: the ids of the limits are not printed: limits given for one id or for another make the same text. *)
Theorem force_display_limits_refuted h i j lo up : (forall k, latest (gives_limits k) h = None) ->
  force_display pz pv (fu_run (h ++ [FLimits i lo up])) = force_display pz pv (fu_run (h ++ [FLimits j lo up])).
Proof.
  intros N. destruct (maps_run h) as (_ & S & _ & I). assert (E : fu_limits (fu_run h) = []).
  { destruct (fu_limits (fu_run h)) as [|[k l] r] eqn:F; [reflexivity|]. specialize (N k). rewrite <- I in N. rewrite <- F in S.
    assert (G : mfind Z.compare (fu_limits (fu_run h)) k = Some l) by (apply (mfind_in _ _ Z.compare zcmp_eq zcmp_antisym _ k l S); rewrite F; left; reflexivity).
    rewrite F in G. congruence. }
  rewrite !fu_snoc. cbn [fu_exec]. unfold set_force_id_to_limits. rewrite E. reflexivity.
Qed.
End Text.

Example force_text_example :
  let h := [FName "rf" 0; FName "lf" 1; FLimits 1 [] []; FName "lh" 2; FSide RightHand 7; FName "rf" 4]%Z in
  latest (gives_side RightFoot) h = Some 4%Z /\ latest (gives_side RightHand) h = Some 7%Z /\ latest (gives_side LeftFoot) h = Some 1%Z /\
  latest (gives_side LeftHand) h = Some 2%Z /\ (exists t, force_display (fun _ => "k") (fun _ => "v") (fu_run h) = Ok t) /\
  force_display (fun _ => "k") (fun _ => "v") (fu_run (firstn 4 h)) = UB /\ (forall k, latest (gives_limits k) (firstn 2 h) = None).
Proof. cbv zeta. repeat split; try reflexivity. eexists. vm_compute. reflexivity. Qed.

Print Assumptions force_display_text_partial.
Print Assumptions force_display_undefined_refuted.
Print Assumptions force_display_limits_refuted.
