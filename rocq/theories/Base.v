(** Common vocabulary of the model: outcomes of C++ calls, checked vector access,
    counting loops.  Nothing here is specific to sot-core. *)
From Coq Require Import String Ascii List Arith Lia ZArith Bool.
Import ListNotations.

(** Result of a C++ call.  [UB] is undefined behaviour (out of bounds access,
    null dereference, integer division by zero, Eigen size mismatch). *)
Inductive outcome (A : Type) : Type :=
| Ok (a : A)
| Throw (what : string)
| UB.
Arguments Ok {A} a.
Arguments Throw {A} what.
Arguments UB {A}.

Definition bind {A B} (m : outcome A) (f : A -> outcome B) : outcome B :=
  match m with Ok a => f a | Throw w => Throw w | UB => UB end.
Notation "'let*' x ':=' m 'in' k" := (bind m (fun x => k))
  (at level 200, x pattern, m at level 100, k at level 200, right associativity).

Definition is_ok {A} (m : outcome A) : bool :=
  match m with Ok _ => true | _ => false end.

(** Checked read [v[i]] : out of range is UB. *)
Definition vget {A} (v : list A) (i : nat) : outcome A :=
  match nth_error v i with Some a => Ok a | None => UB end.

(** In-range functional update; out of range leaves the list unchanged (callers
    that need the UB use [vset]). *)
Fixpoint upd {A} (v : list A) (i : nat) (a : A) : list A :=
  match v, i with
  | [], _ => []
  | _ :: t, O => a :: t
  | x :: t, S j => x :: upd t j a
  end.

(** Checked write [v[i] = a]. *)
Definition vset {A} (v : list A) (i : nat) (a : A) : outcome (list A) :=
  if i <? length v then Ok (upd v i a) else UB.

(** [std::vector::resize(n, d)]. *)
Definition vresize {A} (v : list A) (n : nat) (d : A) : list A :=
  firstn n v ++ repeat d (n - length v).

(** [for (i = lo; i < hi; ++i) s = body(i, s)]. *)
Definition for_range {S} (lo hi : nat) (body : nat -> S -> S) (s : S) : S :=
  fold_left (fun s i => body i s) (seq lo (hi - lo)) s.

(** Same with a body that may throw or be undefined. *)
Fixpoint ofold {S I} (f : S -> I -> outcome S) (l : list I) (s : S) : outcome S :=
  match l with
  | [] => Ok s
  | i :: r => bind (f s i) (ofold f r)
  end.
Definition ofor_range {S} (lo hi : nat) (body : nat -> S -> outcome S) (s : S) : outcome S :=
  ofold (fun s i => body i s) (seq lo (hi - lo)) s.

(* ------------------------------------------------------------------ *)
(** * Lemmas *)

Lemma upd_length {A} (v : list A) i a : length (upd v i a) = length v.
Proof. revert i; induction v as [|x t IH]; intros [|i]; simpl; auto. Qed.

Lemma nth_error_upd {A} (v : list A) i a j :
  nth_error (upd v i a) j =
  if (i =? j) && (i <? length v) then Some a else nth_error v j.
Proof.
  revert i j; induction v as [|x t IH]; intros i j.
  - destruct j; simpl; rewrite andb_false_r; reflexivity.
  - destruct i, j; simpl; try reflexivity. rewrite IH. reflexivity.
Qed.

Lemma nth_upd {A} (v : list A) i a j d :
  nth j (upd v i a) d = if (i =? j) && (i <? length v) then a else nth j v d.
Proof.
  revert i j; induction v as [|x t IH]; intros i j.
  - destruct j; simpl; rewrite andb_false_r; reflexivity.
  - destruct i, j; simpl; try reflexivity. rewrite IH. reflexivity.
Qed.

Lemma vresize_length {A} (v : list A) n d : length (vresize v n d) = n.
Proof.
  unfold vresize. rewrite app_length, firstn_length, repeat_length. lia.
Qed.

Lemma nth_repeat_lt {A} (x d : A) n j : j < n -> nth j (repeat x n) d = x.
Proof. revert j; induction n; intros [|j] H; simpl; auto; try lia. apply IHn; lia. Qed.

Lemma nth_vresize {A} (v : list A) n d j e :
  j < n -> nth j (vresize v n d) e = if j <? length v then nth j v e else d.
Proof.
  intros Hj. unfold vresize.
  destruct (Nat.ltb_spec j (length v)).
  - rewrite app_nth1 by (rewrite firstn_length; lia).
    rewrite <- (firstn_skipn n v) at 2.
    rewrite app_nth1 by (rewrite firstn_length; lia). reflexivity.
  - rewrite app_nth2 by (rewrite firstn_length; lia).
    rewrite firstn_length. apply nth_repeat_lt. lia.
Qed.

(** Invariant rule for counting loops. *)
Lemma for_range_ind {S} (P : nat -> S -> Prop) lo hi body s :
  lo <= hi -> P lo s ->
  (forall i s, lo <= i < hi -> P i s -> P (Datatypes.S i) (body i s)) ->
  P hi (for_range lo hi body s).
Proof.
  intros Hle H0 Hstep. unfold for_range.
  remember (hi - lo) as n eqn:En. revert lo s Hle H0 Hstep En.
  induction n; intros lo s Hle H0 Hstep En; simpl.
  - replace hi with lo by lia. exact H0.
  - apply IHn; try lia.
    + apply Hstep; [lia | exact H0].
    + intros i s' Hi. apply Hstep. lia.
Qed.

Lemma for_range_empty {S} lo hi body (s : S) : hi <= lo -> for_range lo hi body s = s.
Proof. intros H. unfold for_range. replace (hi - lo) with 0 by lia. reflexivity. Qed.

Lemma ofor_range_ind {S} (P : nat -> S -> Prop) lo hi body s :
  lo <= hi -> P lo s ->
  (forall i s, lo <= i < hi -> P i s -> exists s', body i s = Ok s' /\ P (Datatypes.S i) s') ->
  exists s', ofor_range lo hi body s = Ok s' /\ P hi s'.
Proof.
  intros Hle H0 Hstep. unfold ofor_range.
  remember (hi - lo) as n eqn:En. revert lo s Hle H0 Hstep En.
  induction n; intros lo s Hle H0 Hstep En; simpl.
  - exists s. replace hi with lo by lia. auto.
  - destruct (Hstep lo s ltac:(lia) H0) as (s' & E & H1). rewrite E. simpl.
    apply (IHn (Datatypes.S lo) s'); try lia; auto.
    intros i s'' Hi. apply Hstep. lia.
Qed.

Lemma list_eq_nth {A} (d : A) (l1 l2 : list A) :
  length l1 = length l2 ->
  (forall i, i < length l1 -> nth i l1 d = nth i l2 d) -> l1 = l2.
Proof.
  revert l2; induction l1 as [|a l1 IH]; intros [|b l2] HL H; simpl in *; try lia; auto.
  f_equal.
  - apply (H 0); lia.
  - apply IH; [lia|]. intros i Hi. apply (H (S i)). lia.
Qed.

Lemma nth_error_nth_lt {A} (l : list A) i d : i < length l -> nth_error l i = Some (nth i l d).
Proof.
  revert i; induction l as [|a l IH]; intros [|i] H; simpl in *; try lia; auto.
  apply IH; lia.
Qed.

Lemma vget_ok {A} (l : list A) i d : i < length l -> vget l i = Ok (nth i l d).
Proof. intros H. unfold vget. rewrite (nth_error_nth_lt l i d H). reflexivity. Qed.

Lemma vget_ub {A} (l : list A) i : length l <= i -> vget l i = UB.
Proof. intros H. unfold vget. rewrite (proj2 (nth_error_None l i) H). reflexivity. Qed.

Lemma vget_inv {A} (l : list A) i a : vget l i = Ok a -> i < length l /\ nth_error l i = Some a.
Proof.
  unfold vget. destruct (nth_error l i) eqn:E; intros H; inversion H; subst.
  split; auto. apply nth_error_Some. congruence.
Qed.

Lemma ofold_app {S I} (f : S -> I -> outcome S) l1 l2 s :
  ofold f (l1 ++ l2) s = bind (ofold f l1 s) (ofold f l2).
Proof.
  revert s; induction l1 as [|i l1 IH]; intros s; simpl; auto.
  destruct (f s i); simpl; auto.
Qed.
