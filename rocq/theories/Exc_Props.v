(** The exceptions (C114). *)
From Coq Require Import String Arith Lia Bool Ascii Decimal DecimalString DecimalNat DecimalFacts.
From Verif Require Import Base Exc_Model.
Local Open Scope string_scope.

(** ** Identification *)

(** The code alone identifies the class and the rank of the code in it, with either constructor. *)
Theorem exception_code (k k' : kind) (i i' : nat) (m m' f f' : string) (e e' : exn) :
  i < codes k -> i' < codes k' ->
  e = make k i m \/ e = make_format k i m f -> e' = make k' i' m' \/ e' = make_format k' i' m' f' ->
  getCode e = getCode e' -> k = k' /\ i = i'.
Proof.
  intros L L' E E'.
  assert (C : getCode e = generic k + i) by (destruct E as [->| ->]; reflexivity).
  assert (C' : getCode e' = generic k' + i') by (destruct E' as [->| ->]; reflexivity).
  rewrite C, C'. destruct k, k'; cbn [generic codes] in *; intros; split; try reflexivity; lia.
Qed.

Lemma app_nil (s : string) : s ++ "" = s.
Proof. induction s; simpl; congruence. Qed.
Lemma app_assoc (a b c : string) : (a ++ b) ++ c = a ++ b ++ c.
Proof. induction a; simpl; congruence. Qed.
Lemma app_inj_l (a b c : string) : a ++ b = a ++ c -> b = c.
Proof. induction a; simpl; [auto|]. intros H. injection H. auto. Qed.
Lemma app_inj_r (a b : string) (c : ascii) : a ++ String c "" = b ++ String c "" -> a = b.
Proof.
  revert b. induction a as [|x a IH]; destruct b as [|y b]; cbn [append]; intros H; auto.
  - injection H as -> H. destruct b; discriminate.
  - injection H as -> H. destruct a; discriminate.
  - injection H as -> H. f_equal. auto.
Qed.

Lemma digits_end (d d' : uint) (x y : string) :
  NilEmpty.string_of_uint d ++ String "]" x = NilEmpty.string_of_uint d' ++ String "]" y -> d = d' /\ x = y.
Proof.
  revert d'. induction d; destruct d'; cbn [NilEmpty.string_of_uint append]; intros H;
    try discriminate; try (injection H as H; destruct (IHd _ H) as [-> ->]; auto).
  injection H as ->. auto.
Qed.

Lemma to_uint_nonnil n : Nat.to_uint n <> Nil.
Proof.
  intros H. pose proof (Unsigned.of_to n) as E. rewrite H in E. cbn in E. subst n. discriminate.
Qed.

(** The printed text identifies the class, the code and the message. *)
Theorem exception_print (e e' : exn) : print e = print e' -> e = e'.
Proof.
  destruct e as [k c m], e' as [k' c' m']. unfold print. cbn [ekind code message]. intros H.
  assert (k = k') as <- by (destruct k, k'; try reflexivity; cbn [exceptionName append] in H; discriminate).
  apply app_inj_l, app_inj_l in H.
  assert (Z : forall n, NilZero.string_of_uint (Nat.to_uint n) = NilEmpty.string_of_uint (Nat.to_uint n)).
  { intros n. pose proof (to_uint_nonnil n). destruct (Nat.to_uint n); [contradiction|reflexivity..]. }
  rewrite !Z in H. cbn [append] in H. apply digits_end in H. destruct H as [H1 H2].
  injection H2 as H2. apply app_inj_r in H2.
  apply (f_equal Nat.of_uint) in H1. rewrite !Unsigned.of_to in H1. congruence.
Qed.

(** ** Message *)

Definition free_of_null (s : string) : Prop := forall n, get n s <> Some Ascii.zero.

(** Without arguments the message is the text given; as a C string it ends before the first null
    character. *)
Theorem exception_message (k : kind) (i : nat) (m : string) :
  getStringMessage (make k i m) = m /\
  free_of_null (what (make k i m)) /\
  (m = what (make k i m) \/ exists r, m = what (make k i m) ++ String Ascii.zero r).
Proof.
  split; [reflexivity|]. unfold what. cbn [message make].
  induction m as [|c m (F & IH)].
  - split; [intros n; destruct n; discriminate|]. left; reflexivity.
  - cbn [c_str]. destruct (Ascii.eqb_spec c Ascii.zero) as [->|N].
    + split; [intros n; destruct n; discriminate|]. right. exists m. reflexivity.
    + split.
      * intros [|n]; cbn [get]; [congruence|]. apply F.
      * destruct IH as [IH|[r IH]]; [left; congruence|]. right. exists r. cbn [append]. congruence.
Qed.

Lemma substring_all (s : string) n : String.length s <= n -> substring 0 n s = s.
Proof. revert n. induction s; destruct n; cbn [String.length substring]; intros; try lia; auto. f_equal. apply IHs. lia. Qed.
Lemma substring_prefix (s : string) n : exists r, s = substring 0 n s ++ r /\ String.length (substring 0 n s) = min n (String.length s).
Proof.
  revert n. induction s as [|c s IH]; intros [|n]; cbn [substring String.length].
  - exists "". auto.
  - exists "". auto.
  - exists (String c s). auto.
  - destruct (IH n) as (r & E & L). exists r. cbn [append String.length]. split; [congruence|]. lia.
Qed.

(** Wanted: an exception built with a text and details carries both, up to 255 characters of
    details.  This is so of four classes. *)
Theorem exception_details_partial (k : kind) (i : nat) (m f : string) :
  k <> KTask -> k <> KFeature ->
  exists r rest, getStringMessage (make_format k i m f) = m ++ r /\ f = r ++ rest /\
    String.length r = min 255 (String.length f).
Proof.
  intros H1 H2. destruct (substring_prefix f 255) as (rest & E & L).
  exists (substring 0 255 f), rest. repeat split; auto.
  destruct k; try contradiction; reflexivity.
Qed.
(* Missing: KTask and KFeature, where it is false. *)

(** In the exceptions of tasks and features the text is lost: whatever it was the exception is the
    same.  The exception of a visual point behind the camera (feature-visual-point.cpp:96) only
    says " (Z=-1.0).". *)
Theorem exception_details_refuted (k : kind) :
  k = KTask \/ k = KFeature ->
  (forall i m m' f, make_format k i m f = make_format k i m' f) /\
  exists i m f, getStringMessage (make_format k i m f) <> m ++ f /\ String.length f < 255.
Proof.
  intros [-> | ->]; (split; [reflexivity|]); exists 1, "VisualPoint is behind the camera", " (Z=-1.0).";
    (split; [discriminate|]); cbn [String.length]; lia.
Qed.

(** Long details are cut in every class. *)
Theorem exception_details_cut (k : kind) (i : nat) (m f : string) :
  (String.length (getStringMessage (make_format k i m f)) <= String.length m + 255)%nat.
Proof.
  assert (A : forall a b : string, String.length (a ++ b) = String.length a + String.length b).
  { induction a; intros; simpl; auto. }
  destruct (substring_prefix f 255) as (rest & E & L).
  unfold getStringMessage, make_format. cbn [message]. change (SIZE - 1) with 255.
  destruct k; rewrite ?A; lia.
Qed.

Example exception_case :
  print (make KTask 1 "Empty feature list") = "TaskError [#201]:  Empty feature list" ++ newline /\
  getStringMessage (make_format KTools 2 "size" " is 3") = "size is 3".
Proof. split; reflexivity. Qed.

Print Assumptions exception_code.
Print Assumptions exception_print.
Print Assumptions exception_message.
Print Assumptions exception_details_partial.
Print Assumptions exception_details_refuted.
Print Assumptions exception_details_cut.
