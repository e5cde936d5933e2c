(** Properties of the entities that hold a constant (C127). *)
From Coq Require Import List Arith ZArith Lia.
From Verif Require Import Const_Model.
Import ListNotations.

Section Props.
Context {num : Type} (zero : num).

(** Specification.  What a command leaves on the output: a value given, or zeros. *)
Definition is_zero_matrix (r k : nat) (v : cval num) : Prop :=
  exists d, v = CM (CMat r k d) /\ length d = r /\ forall i j, i < r -> j < k -> nth_error (nth i d []) j = Some zero.
Definition well_sized (v : cval num) : Prop :=
  match v with CM m => length (cm_data m) = cm_rows m /\ Forall (fun l => length l = cm_cols m) (cm_data m) | _ => True end.
Definition leaves (x : ccmd num) (v : cval num) : Prop :=
  match x with
  | CResizeM r k => is_zero_matrix r k v
  | CResizeV n => exists d, v = CV d /\ length d = n /\ forall i, i < n -> nth_error d i = Some zero
  | CSet w => v = w
  end.
Definition kind_of (v : cval num) : ckind := match v with CM _ => KMatrix | CV _ => KVector | CD _ => KNumber end.
Definition exec k l v0 := fold_left (const_exec zero k) l (const_new v0).

Lemma nth_error_repeat_lt (A : Type) (x : A) n i : i < n -> nth_error (repeat x n) i = Some x.
Proof. revert i. induction n as [|n IH]; intros [|i] H; try lia; cbn; [reflexivity|apply IH; lia]. Qed.
Lemma nth_repeat_lt (A : Type) (x d : A) n i : i < n -> nth i (repeat x n) d = x.
Proof. intro H. apply nth_error_nth, nth_error_repeat_lt, H. Qed.
Lemma step_leaves c x : leaves x (c_out (const_step zero c x)).
Proof.
  destruct x as [r k|n|w]; cbn; [|exists (repeat zero n)|reflexivity].
  - exists (repeat (repeat zero k) r). split; [reflexivity|split; [apply repeat_length|]]. intros i j Hi Hj.
    rewrite nth_repeat_lt by exact Hi. apply nth_error_repeat_lt, Hj.
  - split; [reflexivity|split; [apply repeat_length|apply nth_error_repeat_lt]].
Qed.

(** The commands of each entity: resize with two sizes for a matrix, with one for a vector, and set with a value of its own kind. *)
Theorem constant_commands k x : accepts k x = true <->
  match x with CResizeM _ _ => k = KMatrix | CResizeV _ => k = KVector | CSet v => kind_of v = k end.
Proof. destruct k, x as [r c|n|[m|v|d]]; cbn; split; congruence. Qed.

(** After any history of commands, the output read at any time is what the last command the entity accepts left: the value set,
    or zeros of the sizes asked.  The refused commands have no effect, and neither has a read. *)
Theorem constant_last_set k v0 l x l' t :
  accepts k x = true -> Forall (fun y => accepts k y = false) l' -> leaves x (const_read (exec k (l ++ x :: l') v0) t).
Proof.
  intros Hx Hl. unfold exec, const_read. rewrite fold_left_app. cbn [fold_left]. generalize (fold_left (const_exec zero k) l (const_new v0)). intro c.
  assert (E : const_exec zero k c x = const_step zero c x) by (unfold const_exec; rewrite Hx; reflexivity). rewrite E. clear E.
  assert (E : forall c, fold_left (const_exec zero k) l' c = c).
  { clear -Hl. induction Hl as [|y l Hy Hl IH]; intro c; [reflexivity|]. cbn. unfold const_exec at 2. rewrite Hy. apply IH. }
  rewrite E. apply step_leaves.
Qed.
Theorem constant_never_set k v0 l t :
  Forall (fun y => accepts k y = false) l -> const_read (exec k l v0) t = v0.
Proof.
  intro Hl. unfold exec, const_read. change v0 with (c_out (const_new v0)) at 2. generalize (const_new v0). induction Hl as [|y l Hy Hl IH]; intro c; [reflexivity|].
  cbn. unfold const_exec at 2. rewrite Hy. apply IH.
Qed.

(** The output keeps its kind, and the lines of a matrix its sizes. *)
Theorem constant_kind k v0 l t :
  kind_of v0 = k -> well_sized v0 -> (forall v, In (CSet v) l -> well_sized v) ->
  kind_of (const_read (exec k l v0) t) = k /\ well_sized (const_read (exec k l v0) t).
Proof.
  intros Hk Hw. unfold exec, const_read. assert (A : kind_of (c_out (const_new v0)) = k /\ well_sized (c_out (const_new v0))) by (split; assumption).
  revert A. generalize (const_new v0). induction l as [|y l IH]; intros c A Hl; [exact A|]. cbn [fold_left]. apply IH; [|intros v Hv; apply Hl; right; exact Hv].
  unfold const_exec. destruct (accepts k y) eqn:E; [|exact A]. clear A IH.
  destruct k, y as [r q|n|[m|v|z]]; cbn in *; try discriminate E; split; try reflexivity; try exact I.
  - rewrite repeat_length. split; [reflexivity|]. apply Forall_forall. intros u Hu. rewrite (repeat_spec _ _ _ Hu). apply repeat_length.
  - apply (Hl (CM m)). left. reflexivity.
Qed.

(** The numbers of rows and columns the entity shows are not those of its value: they stay at zero whatever is set. *)
Theorem constant_sizes_refuted k v0 l : c_rows (exec k l v0) = 0 /\ c_cols (exec k l v0) = 0.
Proof.
  unfold exec. assert (A : c_rows (const_new v0) = 0 /\ c_cols (const_new v0) = 0) by (split; reflexivity). revert A. generalize (const_new v0).
  induction l as [|y l IH]; intros c A; [exact A|]. cbn [fold_left]. apply IH. unfold const_exec. destruct (accepts k y); [|exact A]. destruct y; exact A.
Qed.
End Props.

(** A vector resized to two, then refused a matrix; a matrix of two lines and three columns. *)
Example constant_cases :
  const_read (exec 0 KVector [CSet (CV [4; 5; 6]); CResizeV 2; CResizeM 1 1] (CV [])) 7%Z = CV [0; 0] /\
  const_read (exec 0 KMatrix [CResizeM 2 3] (CM (CMat 0 0 []))) 0%Z = CM (CMat 2 3 [[0; 0; 0]; [0; 0; 0]]) /\
  c_rows (exec 0 KMatrix [CResizeM 2 3] (CM (CMat 0 0 []))) <> 2 /\
  const_read (exec 0 KNumber [CSet (CD 3); CResizeV 4; CSet (CV [1])] (CD 0)) 1%Z = CD 3.
Proof. repeat split. discriminate. Qed.

Print Assumptions constant_last_set.
Print Assumptions constant_never_set.
Print Assumptions constant_kind.
Print Assumptions constant_sizes_refuted.
Print Assumptions constant_commands.
