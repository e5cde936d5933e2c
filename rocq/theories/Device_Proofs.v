(** Lemmas on the device model. *)
From Coq Require Import String Ascii List Arith Lia ZArith Bool.
From Verif Require Import Base Device_Model.
Import ListNotations.

Section D.
Context {num : Type}.
Variables zero half : num.
Variables add mul : num -> num -> num.
Variable ltb : num -> num -> bool.
Variable isnan : num -> bool.
Variable ffint : list num -> list num -> num -> num * num * num * num * num * num.
Notation vadd := (vadd num add). Notation vscale := (vscale num mul).
Notation tail := (tail num). Notation set_tail := (set_tail num).
Notation check_bounds := (check_bounds num ltb). Notation check_if := (check_if num ltb).
Notation integrate_position := (integrate_position num add mul ffint).
Notation integrate := (integrate num half add mul ltb isnan ffint).
Notation increment := (increment num half add mul ltb isnan ffint).

Lemma vadd_length a b : length (vadd a b) = Nat.min (length a) (length b).
Proof. unfold Device_Model.vadd. rewrite map_length, combine_length. reflexivity. Qed.
Lemma vscale_length a x : length (vscale a x) = length a.
Proof. apply map_length. Qed.
Lemma tail_ok v n : n <= length v -> tail v n = Ok (skipn (length v - n) v).
Proof. intros H. unfold Device_Model.tail. destruct (Nat.leb_spec n (length v)); [reflexivity|lia]. Qed.
Lemma set_tail_ok v t : length t <= length v -> set_tail v t = Ok (firstn (length v - length t) v ++ t).
Proof. intros H. unfold Device_Model.set_tail. destruct (Nat.leb_spec (length t) (length v)); [reflexivity|lia]. Qed.

Lemma nth_vscale a x i d : i < length a -> nth i (vscale a x) d = mul (nth i a d) x.
Proof.
  intros H. unfold Device_Model.vscale. rewrite (nth_indep _ d (mul d x)) by (rewrite map_length; lia).
  apply (map_nth (fun y => mul y x)).
Qed.
Lemma nth_vadd a b i d : i < length a -> i < length b -> nth i (vadd a b) d = add (nth i a d) (nth i b d).
Proof.
  revert b i; induction a as [|x a IH]; intros [|y b] [|i] Ha Hb; simpl in *; try lia; auto.
  apply IH; lia.
Qed.
Lemma nth_skipn {A} (l : list A) k i d : nth i (skipn k l) d = nth (k + i) l d.
Proof. revert l; induction k; intros [|a l]; simpl; auto. destruct i; reflexivity. Qed.

Lemma nth_firstn_lt {A} (l : list A) k i d : i < k -> nth i (firstn k l) d = nth i l d.
Proof. revert l i; induction k; intros [|a l] [|i] H; simpl; auto; try lia. apply IHk. lia. Qed.

Lemma check_bounds_ok val lo up : length val <= length lo -> length val <= length up ->
  exists r, check_bounds val lo up = Ok r /\ length r = length val /\
    forall i d, i < length val ->
      nth i r (d, false) = saturateBounds num ltb (nth i val d) (nth i lo d) (nth i up d).
Proof.
  revert lo up; induction val as [|v val IH]; intros lo up Hl Hu.
  - exists []. repeat split. intros; simpl in *; lia.
  - destruct lo as [|l lo]; [simpl in Hl; lia|]. destruct up as [|u up]; [simpl in Hu; lia|].
    destruct (IH lo up) as (r & E & EL & Hr); try (simpl in *; lia).
    cbn [Device_Model.check_bounds]. rewrite E. cbn [bind].
    eexists. split; [reflexivity|]. split; [simpl; lia|].
    intros [|i] d Hi; [reflexivity|]. cbn [nth]. apply Hr. simpl in Hi. lia.
Qed.

Lemma check_bounds_ub val lo up : length lo < length val \/ length up < length val ->
  check_bounds val lo up = UB.
Proof.
  revert lo up; induction val as [|v val IH]; intros lo up H; [simpl in H; lia|].
  destruct lo as [|l lo]; [reflexivity|]. destruct up as [|u up]; [reflexivity|].
  cbn [Device_Model.check_bounds]. rewrite IH by (simpl in H; lia). reflexivity.
Qed.

Lemma check_if_ok b val lo up : (b = true -> length val <= length lo /\ length val <= length up) ->
  exists r, check_if b val lo up = Ok r /\ length r = length val /\
    forall i d, i < length val ->
      nth i r d = if b then fst (saturateBounds num ltb (nth i val d) (nth i lo d) (nth i up d))
                  else nth i val d.
Proof.
  intros H. unfold Device_Model.check_if. destruct b.
  - destruct (H eq_refl) as [H1 H2]. destruct (check_bounds_ok val lo up H1 H2) as (r & E & EL & Hr).
    rewrite E. cbn [bind]. eexists. split; [reflexivity|]. rewrite map_length. split; [exact EL|].
    intros i d Hi. rewrite <- Hr by exact Hi.
    change d with (fst (d, false)) at 1. apply map_nth.
  - eauto.
Qed.

(** What a position step gives: length kept, unactuated joints unchanged, actuated ones moved. *)
Lemma position_ok st vc dt : length vc <= length st -> (length vc = length st -> 6 <= length st) ->
  exists s, integrate_position st vc dt = Ok s /\ length s = length st /\
    (forall i d, i < length st - length vc -> nth i s d = nth i st d) /\
    (forall i d, length st - length vc <= i < length st -> (length vc = length st -> 6 <= i) ->
       nth i s d = add (nth i st d) (mul (nth (i - (length st - length vc)) vc d) dt)) /\
    (length vc = length st -> let '(a, b, c, r, p, y) := ffint (firstn 6 st) (firstn 6 vc) dt in
       firstn 6 s = [a; b; c; r; p; y]).
Proof.
  intros H H6. unfold Device_Model.integrate_position.
  destruct (Nat.eqb_spec (length vc) (length st)) as [E|E].
  - specialize (H6 E). destruct (Nat.ltb_spec (length st) 6); [lia|].
    destruct (ffint (firstn 6 st) (firstn 6 vc) dt) as [[[[[a b] c] r] p] y].
    eexists. split; [reflexivity|].
    assert (L : length (vadd (skipn 6 st) (vscale (skipn 6 vc) dt)) = length st - 6).
    { rewrite vadd_length, vscale_length, !skipn_length. lia. }
    split; [rewrite app_length, L; simpl; lia|]. split; [intros; lia|]. split; [|intros; reflexivity].
    intros i d Hi Hi6. specialize (Hi6 E).
    rewrite app_nth2 by (simpl; lia). cbn [length].
    rewrite nth_vadd by (rewrite ?vscale_length, ?skipn_length; lia).
    rewrite nth_vscale by (rewrite skipn_length; lia). rewrite !nth_skipn.
    replace (6 + (i - 6)) with i by lia. replace (i - (length st - length vc)) with i by lia. reflexivity.
  - rewrite tail_ok by lia. cbn [bind].
    assert (L : length (vadd (skipn (length st - length vc) st) (vscale vc dt)) = length vc).
    { rewrite vadd_length, vscale_length, skipn_length. lia. }
    rewrite set_tail_ok by lia. rewrite L. eexists. split; [reflexivity|].
    split; [rewrite app_length, L, firstn_length; lia|].
    split; [|split; [|intros; lia]].
    + intros i d Hi. rewrite app_nth1 by (rewrite firstn_length; lia).
      apply nth_firstn_lt. exact Hi.
    + intros i d Hi _. rewrite app_nth2 by (rewrite firstn_length; lia).
      rewrite firstn_length. replace (Nat.min (length st - length vc) (length st)) with (length st - length vc) by lia.
      rewrite nth_vadd by (rewrite ?vscale_length, ?skipn_length; lia).
      rewrite nth_vscale by lia. rewrite nth_skipn. f_equal. f_equal. lia.
Qed.

Lemma position_ub st vc dt :
  length st < length vc \/ (length vc = length st /\ length st < 6) -> integrate_position st vc dt = UB.
Proof.
  intros H. unfold Device_Model.integrate_position.
  destruct (Nat.eqb_spec (length vc) (length st)) as [E|E].
  - destruct (Nat.ltb_spec (length st) 6); [reflexivity|lia].
  - unfold Device_Model.tail. destruct (Nat.leb_spec (length vc) (length st)); [lia|reflexivity].
Qed.

(** The velocity part of a second order step. *)
Lemma second_order_ok vel u dt : length u <= length vel ->
  exists t v, tail vel (length u) = Ok t /\ set_tail vel (vadd t (vscale u dt)) = Ok v /\
    length v = length vel /\ length t = length u /\
    (forall i d, i < length vel - length u -> nth i v d = nth i vel d) /\
    (forall i d, i < length u -> nth i t d = nth (length vel - length u + i) vel d) /\
    (forall i d, i < length u ->
       nth (length vel - length u + i) v d = add (nth (length vel - length u + i) vel d) (mul (nth i u d) dt)).
Proof.
  intros H. rewrite tail_ok by exact H. set (t := skipn (length vel - length u) vel).
  assert (Lt : length t = length u) by (unfold t; rewrite skipn_length; lia).
  assert (L : length (vadd t (vscale u dt)) = length u) by (rewrite vadd_length, vscale_length; lia).
  exists t, (firstn (length vel - length u) vel ++ vadd t (vscale u dt)).
  split; [reflexivity|]. split; [rewrite set_tail_ok by lia; rewrite L; reflexivity|].
  split; [rewrite app_length, firstn_length; lia|]. split; [exact Lt|]. split; [|split].
  - intros i d Hi. rewrite app_nth1 by (rewrite firstn_length; lia).
    apply nth_firstn_lt. exact Hi.
  - intros i d Hi. unfold t. apply nth_skipn.
  - intros i d Hi. rewrite app_nth2 by (rewrite firstn_length; lia). rewrite firstn_length.
    replace (length vel - length u + i - Nat.min (length vel - length u) (length vel)) with i by lia.
    rewrite nth_vadd by (rewrite ?vscale_length; lia). rewrite nth_vscale by exact Hi.
    unfold t. rewrite nth_skipn. reflexivity.
Qed.

End D.
