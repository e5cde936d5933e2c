(** Proofs about the [Flags] model. *)
From Coq Require Import String Ascii List Arith Lia ZArith Bool.
From Verif Require Import Base Flags_Model.
Import ListNotations.

Lemma at_nth f i : (0 <= i)%Z ->
  at_ f i = Ok (nth (Z.to_nat i) (flags f) (outOfRangeFlag f)).
Proof.
  intros Hi. unfold at_.
  destruct (Z.ltb_spec i (Z.of_nat (length (flags f)))).
  - destruct (Z.ltb_spec i 0); [lia|]. apply vget_ok. lia.
  - rewrite nth_overflow by lia. reflexivity.
Qed.

(** The two loops of [&=] and [|=]. *)
Section Combine.
  Variable op : bool -> bool -> bool.
  Variables f1 f2 : Flags.
  Let n2 := length (flags f2).
  Let l0 := if length (flags f1) <? n2
            then vresize (flags f1) n2 (outOfRangeFlag f1) else flags f1.
  Let l1 := for_range 0 n2 (fun i l =>
              upd l i (op (nth i l false) (nth i (flags f2) false))) l0.
  Let l2 := for_range n2 (length l1) (fun i l =>
              upd l i (op (nth i l false) (outOfRangeFlag f2))) l1.

  Lemma l0_length : length l0 = Nat.max (length (flags f1)) n2.
  Proof.
    unfold l0. destruct (Nat.ltb_spec (length (flags f1)) n2).
    - rewrite vresize_length. lia.
    - lia.
  Qed.

  Lemma l0_nth j d : j < length l0 -> nth j l0 d = nth j (flags f1) (outOfRangeFlag f1).
  Proof.
    intros Hj. rewrite l0_length in Hj. unfold l0.
    destruct (Nat.ltb_spec (length (flags f1)) n2).
    - rewrite nth_vresize by lia.
      destruct (Nat.ltb_spec j (length (flags f1))).
      + apply nth_indep; lia.
      + rewrite nth_overflow by lia. reflexivity.
    - apply nth_indep. lia.
  Qed.

  Lemma l1_spec :
    length l1 = length l0 /\
    forall j d, j < length l0 ->
      nth j l1 d = if j <? n2 then op (nth j l0 d) (nth j (flags f2) d) else nth j l0 d.
  Proof.
    unfold l1.
    apply (for_range_ind (fun k l => length l = length l0 /\
      forall j d, j < length l0 ->
       nth j l d = if j <? k then op (nth j l0 d) (nth j (flags f2) d) else nth j l0 d)).
    - lia.
    - split; auto.
    - intros i l Hi [HL H]. split.
      + rewrite upd_length. exact HL.
      + pose proof l0_length as H0.
        intros j d Hj. rewrite nth_upd.
        destruct (Nat.eqb_spec i j) as [->|Hne]; simpl.
        * destruct (Nat.ltb_spec j (length l)); [|lia].
          destruct (Nat.ltb_spec j (S j)); [|lia].
          rewrite H by lia. destruct (Nat.ltb_spec j j); [lia|].
          f_equal; apply nth_indep; unfold n2 in *; lia.
        * rewrite H by lia.
          destruct (Nat.ltb_spec j i), (Nat.ltb_spec j (S i)); auto; lia.
  Qed.

  Lemma l2_spec :
    length l2 = length l0 /\
    forall j d, j < length l0 ->
      nth j l2 d = op (nth j l0 d) (nth j (flags f2) (outOfRangeFlag f2)).
  Proof.
    destruct l1_spec as [HL1 H1].
    pose proof l0_length as H0.
    assert (Hgen : length l2 = length l0 /\
      forall j d, j < length l0 -> nth j l2 d =
        if j <? length l1 then op (nth j l0 d) (nth j (flags f2) (outOfRangeFlag f2))
        else nth j l1 d).
    { unfold l2.
      apply (for_range_ind (fun k l => length l = length l0 /\
        forall j d, j < length l0 -> nth j l d =
         if j <? k then op (nth j l0 d) (nth j (flags f2) (outOfRangeFlag f2))
         else nth j l1 d)).
      - lia.
      - split; [exact HL1|]. intros j d Hj.
        destruct (Nat.ltb_spec j n2); auto.
        rewrite H1 by lia. destruct (Nat.ltb_spec j n2); [|lia].
        f_equal. apply nth_indep. unfold n2 in *; lia.
      - intros i l Hi [HL H]. split.
        + rewrite upd_length. exact HL.
        + intros j d Hj. rewrite nth_upd.
          destruct (Nat.eqb_spec i j) as [->|Hne]; simpl.
          * destruct (Nat.ltb_spec j (length l)); [|lia].
            destruct (Nat.ltb_spec j (S j)); [|lia].
            rewrite H by lia. destruct (Nat.ltb_spec j j); [lia|].
            rewrite H1 by lia. destruct (Nat.ltb_spec j n2); [lia|].
            rewrite (nth_overflow (flags f2)) by (unfold n2 in *; lia).
            f_equal. apply nth_indep; lia.
          * rewrite H by lia.
            destruct (Nat.ltb_spec j i), (Nat.ltb_spec j (S i)); auto; lia. }
    destruct Hgen as [HL H]. split; auto.
    intros j d Hj. rewrite H by lia.
    destruct (Nat.ltb_spec j (length l1)); [reflexivity|lia].
  Qed.

  Lemma combine_nth j :
    nth j l2 (op (outOfRangeFlag f1) (outOfRangeFlag f2)) =
    op (nth j (flags f1) (outOfRangeFlag f1)) (nth j (flags f2) (outOfRangeFlag f2)).
  Proof.
    destruct l2_spec as [HL H]. pose proof l0_length as H0.
    destruct (Nat.lt_ge_cases j (length l0)) as [Hj|Hj].
    - rewrite H by lia. rewrite l0_nth by lia. reflexivity.
    - rewrite !nth_overflow by (unfold n2 in *; lia). reflexivity.
  Qed.
End Combine.

Lemma and_nth f1 f2 j :
  nth j (flags (and_ f1 f2)) (outOfRangeFlag (and_ f1 f2)) =
  andb (nth j (flags f1) (outOfRangeFlag f1)) (nth j (flags f2) (outOfRangeFlag f2)).
Proof. apply (combine_nth andb f1 f2 j). Qed.

Lemma or_nth f1 f2 j :
  nth j (flags (or_ f1 f2)) (outOfRangeFlag (or_ f1 f2)) =
  orb (nth j (flags f1) (outOfRangeFlag f1)) (nth j (flags f2) (outOfRangeFlag f2)).
Proof. apply (combine_nth orb f1 f2 j). Qed.

Lemma not_nth f j :
  nth j (flags (not_ f)) (outOfRangeFlag (not_ f)) =
  negb (nth j (flags f) (outOfRangeFlag f)).
Proof. unfold not_; simpl. apply map_nth. Qed.

Lemma and_length f1 f2 :
  length (flags (and_ f1 f2)) = Nat.max (length (flags f1)) (length (flags f2)).
Proof. exact (eq_trans (proj1 (l2_spec andb f1 f2)) (l0_length andb f1 f2)). Qed.
Lemma or_length f1 f2 :
  length (flags (or_ f1 f2)) = Nat.max (length (flags f1)) (length (flags f2)).
Proof. exact (eq_trans (proj1 (l2_spec orb f1 f2)) (l0_length orb f1 f2)). Qed.

Lemma any_loop_existsb l : any_loop l = existsb (fun b => b) l.
Proof. induction l as [|[|] l IH]; simpl; auto. Qed.

Lemma to_bool_iff f :
  to_bool f = true <-> exists i, (0 <= i)%Z /\ at_ f i = Ok true.
Proof.
  unfold to_bool. split.
  - destruct (outOfRangeFlag f) eqn:E; intros H.
    + exists (Z.of_nat (length (flags f))). split; [lia|].
      rewrite at_nth by lia. rewrite nth_overflow by lia. congruence.
    + rewrite any_loop_existsb in H. apply existsb_exists in H.
      destruct H as (b & Hin & ->).
      destruct (In_nth _ _ (outOfRangeFlag f) Hin) as (n & Hn & Hb).
      exists (Z.of_nat n). split; [lia|].
      rewrite at_nth by lia. rewrite Nat2Z.id, Hb. reflexivity.
  - intros (i & Hi & H). rewrite at_nth in H by lia. assert (H' : nth (Z.to_nat i) (flags f) (outOfRangeFlag f) = true) by congruence. clear H.
    destruct (outOfRangeFlag f) eqn:E; auto.
    rewrite any_loop_existsb. apply existsb_exists. exists true. split; auto.
    destruct (Nat.lt_ge_cases (Z.to_nat i) (length (flags f))).
    + rewrite <- H'. apply nth_In. auto.
    + rewrite nth_overflow in H' by lia. discriminate.
Qed.

Lemma read_loop_print l acc :
  read_loop (print_bits l) acc = (Ok tt, acc ++ l).
Proof.
  revert acc; induction l as [|b l IH]; intros acc; simpl.
  - rewrite app_nil_r. reflexivity.
  - destruct b; simpl; rewrite IH, <- app_assoc; reflexivity.
Qed.

Lemma parse_ctor_print l : parse_ctor (print_bits l) = Ok l.
Proof.
  induction l as [|b l IH]; simpl; auto.
  destruct b; simpl; rewrite IH; reflexivity.
Qed.
