(** Theorems about [Flags] (properties C01-C04). *)
From Coq Require Import String Ascii List Arith Lia ZArith Bool.
From Verif Require Import Base Flags_Model Flags_Proofs.
Import ListNotations.

(** ** C01 *)
Theorem flags_and_pointwise : forall (a b : Flags) (i : Z), (0 <= i)%Z ->
  exists x y, at_ a i = Ok x /\ at_ b i = Ok y /\
    at_ (and_ a b) i = Ok (x && y) /\ at_ (and_assign a b) i = Ok (x && y).
Proof.
  intros a b i Hi. rewrite !at_nth by exact Hi.
  do 2 eexists. do 2 (split; [reflexivity|]).
  split; f_equal; apply and_nth.
Qed.

Theorem flags_or_pointwise : forall (a b : Flags) (i : Z), (0 <= i)%Z ->
  exists x y, at_ a i = Ok x /\ at_ b i = Ok y /\
    at_ (or_ a b) i = Ok (x || y) /\ at_ (or_assign a b) i = Ok (x || y).
Proof.
  intros a b i Hi. rewrite !at_nth by exact Hi.
  do 2 eexists. do 2 (split; [reflexivity|]).
  split; f_equal; apply or_nth.
Qed.

Theorem flags_not_pointwise : forall (a : Flags) (i : Z), (0 <= i)%Z ->
  exists x, at_ a i = Ok x /\ at_ (not_ a) i = Ok (negb x).
Proof.
  intros a i Hi. rewrite !at_nth by exact Hi. eexists. split; [reflexivity|].
  f_equal. apply not_nth.
Qed.

Theorem flags_de_morgan : forall (a b : Flags) (i : Z), (0 <= i)%Z ->
  at_ (not_ (and_ a b)) i = at_ (or_ (not_ a) (not_ b)) i /\
  at_ (not_ (or_ a b)) i = at_ (and_ (not_ a) (not_ b)) i.
Proof.
  intros a b i Hi. rewrite !at_nth by exact Hi.
  rewrite !or_nth, !and_nth, !not_nth, ?and_nth, ?or_nth.
  rewrite negb_andb, negb_orb. auto.
Qed.

(** A negative index is the only way to undefined behaviour when reading. *)
Theorem flags_read_defined : forall (a : Flags) (i : Z),
  at_ a i = UB <-> (i < 0)%Z.
Proof.
  intros a i. split.
  - intros H. destruct (Z.lt_ge_cases i 0) as [|Hi]; auto.
    rewrite at_nth in H by exact Hi. discriminate.
  - intros Hi. unfold at_.
    destruct (Z.ltb_spec i (Z.of_nat (length (flags a)))); [|lia].
    destruct (Z.ltb_spec i 0); [reflexivity|lia].
Qed.

(** Different lengths and defaults: "101" & !"0011" reads 1,0,0,0,... *)
Example flags_and_ex :
  let a := of_vector [true; false; true] in
  let b := not_ (of_vector [false; false; true; true]) in
  map (fun i => at_ (and_ a b) i) [0;1;2;3;10]%Z
  = map Ok [true; false; false; false; false] /\
  map (fun i => at_ (or_ a b) i) [0;1;2;3;10]%Z
  = map Ok [true; true; true; false; true].
Proof. split; reflexivity. Qed.

(** ** C02 *)
Theorem flags_to_bool_iff_some_index_set : forall f : Flags,
  to_bool f = true <-> exists i : Z, (0 <= i)%Z /\ at_ f i = Ok true.
Proof. exact to_bool_iff. Qed.

Example flags_to_bool_ex :
  to_bool (of_vector [false; false; true]) = true /\
  to_bool (of_vector [false; false]) = false /\ to_bool (of_bool true) = true.
Proof. repeat split. Qed.

(** ** C03 : specification of the edits as (number of stored bits, contents). *)
Definition spec_edit (s : nat * (nat -> bool)) (e : edit) : nat * (nat -> bool) :=
  let '(n, v) := s in
  match e with
  | EAdd b => (S n, fun i => if i =? n then b else v i)
  | ESet k => (n, fun i => if (i =? k) && (k <? n) then true else v i)
  | EUnset k => (n, fun i => if (i =? k) && (k <? n) then false else v i)
  end.

Lemma spec_edit_sound : forall (es : list edit) (f : Flags) (n : nat) (v : nat -> bool),
  length (flags f) = n ->
  (forall i, nth i (flags f) (outOfRangeFlag f) = v i) ->
  let g := fold_left apply_edit es f in
  length (flags g) = fst (fold_left spec_edit es (n, v)) /\
  forall i, nth i (flags g) (outOfRangeFlag g) = snd (fold_left spec_edit es (n, v)) i.
Proof.
  induction es as [|e es IH]; intros f n v Hn Hv; simpl.
  - auto.
  - destruct e as [b|k|k]; apply IH; simpl.
    + rewrite app_length; simpl; lia.
    + intros i. destruct (Nat.eqb_spec i n) as [->|Hne].
      * rewrite <- Hn, app_nth2, Nat.sub_diag by lia. reflexivity.
      * rewrite <- Hv. destruct (Nat.lt_ge_cases i n).
        -- apply app_nth1. lia.
        -- rewrite !nth_overflow; auto; [lia|]. rewrite app_length; simpl; lia.
    + unfold set_. destruct (k <? length (flags f)); simpl; rewrite ?upd_length; auto.
    + intros i. unfold set_. rewrite <- Hn, <- Hv, (Nat.eqb_sym i k).
      destruct (k <? length (flags f)) eqn:E; simpl.
      * rewrite nth_upd, E. reflexivity.
      * rewrite andb_false_r. reflexivity.
    + unfold unset. destruct (k <? length (flags f)); simpl; rewrite ?upd_length; auto.
    + intros i. unfold unset. rewrite <- Hn, <- Hv, (Nat.eqb_sym i k).
      destruct (k <? length (flags f)) eqn:E; simpl.
      * rewrite nth_upd, E. reflexivity.
      * rewrite andb_false_r. reflexivity.
Qed.

(** After any edit history from a Flags built from bits [l] (default [d]), index
    [i] reads what the specification says. *)
Theorem flags_edit_history : forall (l : list bool) (d : bool) (es : list edit) (i : nat),
  at_ (fold_left apply_edit es (mkFlags l d)) (Z.of_nat i) =
  Ok (snd (fold_left spec_edit es (length l, fun j => nth j l d)) i).
Proof.
  intros l d es i. rewrite at_nth by lia. rewrite Nat2Z.id. f_equal.
  apply (proj2 (spec_edit_sound es (mkFlags l d) (length l) (fun j => nth j l d)
           eq_refl (fun j => eq_refl))).
Qed.

Example flags_edit_ex :
  map (fun i => at_ (fold_left apply_edit [EAdd true; ESet 0; EUnset 2; ESet 7]
                       (mkFlags [false; true] false)) i) [0;1;2;3]%Z
  = map Ok [true; true; false; false].
Proof. reflexivity. Qed.

(** ** C04 : text. *)
Fixpoint chars (s : string) : list ascii :=
  match s with EmptyString => [] | String c r => c :: chars r end.
Definition legal (c : ascii) : Prop := c = "0"%char \/ c = "1"%char \/ c = " "%char.

Theorem flags_print_read : forall (f g : Flags),
  exists g', read (print f) g = (Ok tt, g') /\
    flags g' = flags f /\ outOfRangeFlag g' = outOfRangeFlag g.
Proof.
  intros f g. unfold read, print. rewrite read_loop_print. simpl.
  eexists. repeat split.
Qed.

Theorem flags_print_construct : forall f : Flags,
  of_string (print f) = Ok (mkFlags (flags f) false).
Proof. intros f. unfold of_string, print. rewrite parse_ctor_print. reflexivity. Qed.

(** The text carries every observable bit when the default is the same. *)
Theorem flags_print_read_same_default : forall (f g : Flags),
  outOfRangeFlag f = outOfRangeFlag g -> read (print f) g = (Ok tt, f).
Proof.
  intros [l d] [l' d'] E. simpl in E. unfold read, print. rewrite read_loop_print.
  simpl. rewrite <- E. reflexivity.
Qed.

Lemma read_loop_spec : forall s acc,
  (Forall legal (chars s) ->
   read_loop s acc = (Ok tt, acc ++ map (fun c => Ascii.eqb c "1")
                        (filter (fun c => negb (Ascii.eqb c " ")) (chars s)))) /\
  (~ Forall legal (chars s) -> exists l, read_loop s acc = (Throw "invalid_argument", l)).
Proof.
  induction s as [|c s IH]; intros acc; simpl.
  - split; intros H; [rewrite app_nil_r; reflexivity | exfalso; apply H; constructor].
  - destruct (Ascii.eqb_spec c "0") as [->|H0]; [|destruct (Ascii.eqb_spec c "1") as [->|H1];
      [|destruct (Ascii.eqb_spec c " ") as [->|H2]]].
    + destruct (IH (acc ++ [false])) as [IH1 IH2]. split; intros H.
      * inversion H; subst. rewrite IH1 by assumption. simpl. rewrite <- app_assoc. reflexivity.
      * apply IH2. intros F. apply H. constructor; auto. left; reflexivity.
    + destruct (IH (acc ++ [true])) as [IH1 IH2]. split; intros H.
      * inversion H; subst. rewrite IH1 by assumption. simpl. rewrite <- app_assoc. reflexivity.
      * apply IH2. intros F. apply H. constructor; auto. right; left; reflexivity.
    + destruct (IH acc) as [IH1 IH2]. split; intros H.
      * inversion H; subst. rewrite IH1 by assumption. simpl. reflexivity.
      * apply IH2. intros F. apply H. constructor; auto. right; right; reflexivity.
    + split; intros H.
      * inversion H as [|? ? [?|[?|?]] ?]; subst; congruence.
      * eexists; reflexivity.
Qed.

Theorem flags_read_accepts : forall (s : string) (g : Flags),
  Forall legal (chars s) ->
  read s g = (Ok tt, mkFlags (map (fun c => Ascii.eqb c "1")
                (filter (fun c => negb (Ascii.eqb c " ")) (chars s))) (outOfRangeFlag g)).
Proof.
  intros s g H. unfold read. rewrite (proj1 (read_loop_spec s []) H). reflexivity.
Qed.

Theorem flags_read_rejects : forall (s : string) (g : Flags),
  ~ Forall legal (chars s) -> fst (read s g) = Throw "invalid_argument".
Proof.
  intros s g H. unfold read. destruct (proj2 (read_loop_spec s []) H) as (l & ->).
  reflexivity.
Qed.

Lemma parse_ctor_spec : forall s,
  (Forall legal (chars s) -> parse_ctor s = Ok (map (fun c => Ascii.eqb c "1") (chars s))) /\
  (~ Forall legal (chars s) -> parse_ctor s = Throw "invalid_argument").
Proof.
  induction s as [|c s [IH1 IH2]]; simpl.
  - split; intros H; [reflexivity | exfalso; apply H; constructor].
  - destruct (Ascii.eqb_spec c "0") as [->|H0]; [|destruct (Ascii.eqb_spec c "1") as [->|H1];
      [|destruct (Ascii.eqb_spec c " ") as [->|H2]]].
    + split; intros H.
      * inversion H; subst. rewrite IH1 by assumption. reflexivity.
      * rewrite IH2; auto. intros F. apply H. constructor; auto. left; reflexivity.
    + split; intros H.
      * inversion H; subst. rewrite IH1 by assumption. reflexivity.
      * rewrite IH2; auto. intros F. apply H. constructor; auto. right; left; reflexivity.
    + split; intros H.
      * inversion H; subst. rewrite IH1 by assumption. reflexivity.
      * rewrite IH2; auto. intros F. apply H. constructor; auto. right; right; reflexivity.
    + split; intros H; auto.
      inversion H as [|? ? [?|[?|?]] ?]; subst; congruence.
Qed.

(** The constructor accepts the same alphabet; a blank counts as a 0 bit. *)
Theorem flags_construct_alphabet : forall s : string,
  (Forall legal (chars s) ->
     of_string s = Ok (mkFlags (map (fun c => Ascii.eqb c "1") (chars s)) false)) /\
  (~ Forall legal (chars s) -> of_string s = Throw "invalid_argument").
Proof.
  intros s. unfold of_string. destruct (parse_ctor_spec s) as [H1 H2].
  split; intros H; [rewrite H1 | rewrite H2]; auto.
Qed.

(** Finding: the default bit is lost by printing, so the text does not determine
    the observable value. *)
Theorem flags_print_loses_default_refuted :
  exists (f g : Flags) (i : Z), (0 <= i)%Z /\ print f = print g /\ at_ f i <> at_ g i.
Proof.
  exists (of_bool true), (of_bool false), 0%Z.
  split; [lia|]. split; [reflexivity|]. discriminate.
Qed.

(** Finding: a blank is a 0 bit for the constructor but is skipped by the stream
    reader, so the two readings of one text differ. *)
Theorem flags_blank_ambiguous_refuted :
  exists s f g, of_string s = Ok f /\ read s (of_bool false) = (Ok tt, g) /\
    at_ f 1 <> at_ g 1.
Proof.
  exists "1 1"%string. do 2 eexists. split; [reflexivity|]. split; [reflexivity|].
  discriminate.
Qed.

Example flags_text_ex :
  read (print (of_vector [true; false; true])) (of_vector [false])
   = (Ok tt, of_vector [true; false; true]) /\
  fst (read "10x" (of_bool true)) = Throw "invalid_argument".
Proof. split; reflexivity. Qed.

Print Assumptions flags_and_pointwise.
Print Assumptions flags_or_pointwise.
Print Assumptions flags_not_pointwise.
Print Assumptions flags_de_morgan.
Print Assumptions flags_read_defined.
Print Assumptions flags_to_bool_iff_some_index_set.
Print Assumptions flags_edit_history.
Print Assumptions flags_print_read.
Print Assumptions flags_print_construct.
Print Assumptions flags_print_read_same_default.
Print Assumptions flags_read_accepts.
Print Assumptions flags_read_rejects.
Print Assumptions flags_construct_alphabet.
Print Assumptions flags_print_loses_default_refuted.
Print Assumptions flags_blank_ambiguous_refuted.
