(** Proofs about the task stack model. *)
From Coq Require Import String Ascii List Arith Lia ZArith Bool Permutation.
From Verif Require Import Base Stack_Model.
Import ListNotations.

Lemma find_it_some l key i :
  find_it l key = Some i ->
  exists l1 l2, l = l1 ++ key :: l2 /\ ~ In key l1 /\ length l1 = i.
Proof.
  revert i; induction l as [|x r IH]; intros i; simpl; [discriminate|].
  destruct (Nat.eqb_spec x key) as [->|Hne].
  - intros E; inversion E; subst. exists [], r. simpl; auto.
  - destruct (find_it r key) as [k|] eqn:F; [|discriminate].
    intros E; inversion E; subst.
    destruct (IH k eq_refl) as (l1 & l2 & -> & Hn & HL).
    exists (x :: l1), l2. simpl. repeat split; auto.
    intros [H|H]; auto.
Qed.

Lemma find_it_none l key : find_it l key = None <-> ~ In key l.
Proof.
  induction l as [|x r IH]; simpl.
  - tauto.
  - destruct (Nat.eqb_spec x key) as [->|Hne].
    + split; [discriminate|intros H; exfalso; apply H; auto].
    + destruct (find_it r key); split; intros H; try discriminate; try tauto.
      exfalso. assert (~ In key r) by tauto. apply IH in H0. discriminate.
Qed.

Lemma find_it_first l1 key l2 :
  ~ In key l1 -> find_it (l1 ++ key :: l2) key = Some (length l1).
Proof.
  induction l1 as [|x r IH]; simpl; intros H.
  - rewrite Nat.eqb_refl. reflexivity.
  - destruct (Nat.eqb_spec x key) as [->|]; [tauto|].
    rewrite IH by tauto. reflexivity.
Qed.

Lemma firstn_app_exact {A} (l1 l2 : list A) : firstn (length l1) (l1 ++ l2) = l1.
Proof. rewrite firstn_app, Nat.sub_diag, firstn_all; simpl. apply app_nil_r. Qed.
Lemma skipn_app_exact {A} (l1 l2 : list A) : skipn (length l1) (l1 ++ l2) = l2.
Proof. rewrite skipn_app, Nat.sub_diag, skipn_all; reflexivity. Qed.

Lemma erase_exact {A} (l1 : list A) x l2 : erase (l1 ++ x :: l2) (length l1) = l1 ++ l2.
Proof.
  unfold erase. rewrite firstn_app_exact.
  replace (l1 ++ x :: l2) with ((l1 ++ [x]) ++ l2) by (rewrite <- app_assoc; reflexivity).
  replace (S (length l1)) with (length (l1 ++ [x])) by (rewrite app_length; simpl; lia).
  rewrite skipn_app_exact. reflexivity.
Qed.

Lemma insert_exact {A} (l1 : list A) x l2 : insert (l1 ++ l2) (length l1) x = l1 ++ x :: l2.
Proof. unfold insert. rewrite firstn_app_exact, skipn_app_exact. reflexivity. Qed.

Lemma remove_eq s l1 key l2 :
  stack s = l1 ++ key :: l2 -> ~ In key l1 ->
  remove s key = mkSot (l1 ++ l2) (nbJoints s) (removeDependency key (deps s)).
Proof.
  intros E H. unfold remove. rewrite E, (find_it_first _ _ _ H), erase_exact. reflexivity.
Qed.

Lemma remove_absent s key : ~ In key (stack s) -> remove s key = s.
Proof. intros H. unfold remove. apply find_it_none in H. rewrite H. reflexivity. Qed.

Lemma up_eq s l1 x key l2 :
  stack s = l1 ++ x :: key :: l2 -> ~ In key (l1 ++ [x]) ->
  up s key = mkSot (l1 ++ key :: x :: l2) (nbJoints s) (deps s).
Proof.
  intros E H. unfold up.
  replace (stack s) with ((l1 ++ [x]) ++ key :: l2)
    by (rewrite E, <- app_assoc; reflexivity).
  rewrite (find_it_first _ _ _ H).
  rewrite erase_exact. rewrite app_length. simpl. rewrite Nat.add_1_r. simpl.
  f_equal. rewrite <- app_assoc. simpl. apply insert_exact.
Qed.

Lemma up_first s key l2 : stack s = key :: l2 -> up s key = s.
Proof. intros E. unfold up. rewrite E. simpl. rewrite Nat.eqb_refl. reflexivity. Qed.

Lemma up_absent s key : ~ In key (stack s) -> up s key = s.
Proof. intros H. unfold up. apply find_it_none in H. rewrite H. reflexivity. Qed.

Lemma down_eq s l1 x key l2 :
  stack s = l1 ++ key :: x :: l2 -> ~ In key l1 ->
  down s key = mkSot (l1 ++ x :: key :: l2) (nbJoints s) (deps s).
Proof.
  intros E H. unfold down. rewrite E, (find_it_first _ _ _ H), erase_exact.
  rewrite app_length. simpl. destruct (Nat.eqb_spec (length l1) (length l1 + S (length l2))); [lia|].
  f_equal.
  replace (l1 ++ x :: l2) with ((l1 ++ [x]) ++ l2) by (rewrite <- app_assoc; reflexivity).
  replace (S (length l1)) with (length (l1 ++ [x])) by (rewrite app_length; simpl; lia).
  rewrite insert_exact, <- app_assoc. reflexivity.
Qed.

Lemma down_last s l1 key :
  stack s = l1 ++ [key] -> ~ In key l1 -> down s key = s.
Proof.
  intros E H. unfold down. rewrite E, (find_it_first _ _ _ H), erase_exact.
  rewrite app_nil_r, Nat.eqb_refl, <- E. destruct s; reflexivity.
Qed.

Lemma down_absent s key : ~ In key (stack s) -> down s key = s.
Proof. intros H. unfold down. apply find_it_none in H. rewrite H. reflexivity. Qed.

Lemma pop_eq s l t :
  stack s = l ++ [t] ->
  pop s = (Ok t, mkSot l (nbJoints s) (removeDependency t (deps s))).
Proof.
  intros E. unfold pop. rewrite E, rev_app_distr. simpl. rewrite removelast_last. reflexivity.
Qed.

Lemma pop_empty s : stack s = [] -> pop s = (UB, s).
Proof. intros E. unfold pop. rewrite E. reflexivity. Qed.

Lemma exist_iff s key : exist s key = true <-> In key (stack s).
Proof.
  unfold exist. destruct (find_it (stack s) key) eqn:E.
  - split; auto. intros _. destruct (find_it_some _ _ _ E) as (l1 & l2 & -> & _).
    apply in_or_app; right; left; reflexivity.
  - split; [discriminate|]. intros H. apply find_it_none in E. contradiction.
Qed.

(** Dependencies. *)
Lemma dep_eqb_eq a b : dep_eqb a b = true <-> a = b.
Proof.
  destruct a, b; simpl; try (split; [discriminate|intros H; inversion H]);
    rewrite Nat.eqb_eq; split; intros H; congruence.
Qed.

Lemma in_removeDep d x l : In x (removeDep d l) <-> In x l /\ x <> d.
Proof.
  unfold removeDep. rewrite filter_In, negb_true_iff.
  split; intros [H1 H2]; split; auto.
  - intros E. apply dep_eqb_eq in E. congruence.
  - destruct (dep_eqb x d) eqn:E; auto. apply dep_eqb_eq in E. contradiction.
Qed.

Lemma in_removeDependency t x l :
  In x (removeDependency t l) <-> In x l /\ x <> DTask t /\ x <> DJac t.
Proof. unfold removeDependency. rewrite !in_removeDep. tauto. Qed.

Lemma in_clear_deps ts x l :
  In x (fold_left (fun d t => removeDependency t d) ts l) <->
  In x l /\ forall t, In t ts -> x <> DTask t /\ x <> DJac t.
Proof.
  revert l; induction ts as [|t ts IH]; intros l; simpl.
  - split; [intros H; split; auto; tauto | tauto].
  - rewrite IH, in_removeDependency. split.
    + intros [(H1 & H2 & H3) H4]. split; auto. intros u [<-|Hu]; auto.
    + intros [H1 H2]. pose proof (H2 t (or_introl eq_refl)) as [H3 H4].
      split; [tauto|]. intros u Hu. apply H2. right; exact Hu.
Qed.

(** The dependencies on task signals are exactly those of the stacked tasks. *)
Definition deps_match (s : Sot) : Prop :=
  forall t, (In (DTask t) (deps s) <-> In t (stack s)) /\
            (In (DJac t) (deps s) <-> In t (stack s)).

Lemma deps_match_perm s l :
  deps_match s -> (forall x, In x l <-> In x (stack s)) ->
  deps_match (mkSot l (nbJoints s) (deps s)).
Proof. intros H P t. simpl. rewrite P. apply H. Qed.

Lemma up_spec s key :
  up s key = s \/
  exists l1 x l2, stack s = l1 ++ x :: key :: l2 /\ ~ In key (l1 ++ [x]) /\
    up s key = mkSot (l1 ++ key :: x :: l2) (nbJoints s) (deps s).
Proof.
  destruct (in_dec Nat.eq_dec key (stack s)) as [Hin|Hout].
  - destruct (find_it (stack s) key) as [i|] eqn:E.
    + destruct (find_it_some _ _ _ E) as (l1 & l2 & E1 & Hn & HL).
      destruct l1 as [|y l1'] using rev_ind.
      * left. eapply up_first; eauto.
      * right. clear IHl1'. rewrite <- app_assoc in E1. simpl in E1.
        exists l1', y, l2. repeat split; auto. apply up_eq; auto.
    + apply find_it_none in E. contradiction.
  - left. apply up_absent; auto.
Qed.

Lemma down_spec s key :
  down s key = s \/
  exists l1 x l2, stack s = l1 ++ key :: x :: l2 /\ ~ In key l1 /\
    down s key = mkSot (l1 ++ x :: key :: l2) (nbJoints s) (deps s).
Proof.
  destruct (in_dec Nat.eq_dec key (stack s)) as [Hin|Hout].
  - destruct (find_it (stack s) key) as [i|] eqn:E.
    + destruct (find_it_some _ _ _ E) as (l1 & l2 & E1 & Hn & HL).
      destruct l2 as [|x l2].
      * left. eapply down_last; eauto.
      * right. exists l1, x, l2. repeat split; auto. apply down_eq; auto.
    + apply find_it_none in E. contradiction.
  - left. apply down_absent; auto.
Qed.

(** A push that does not duplicate a task. *)
Definition no_dup_push (s : Sot) (c : cmd) : Prop :=
  match c with CPush t => ~ In t (stack s) | _ => True end.

Lemma NoDup_snoc {A} (l : list A) a : NoDup l -> ~ In a l -> NoDup (l ++ [a]).
Proof.
  intros ND H. apply (Permutation_NoDup (l := a :: l)).
  - apply Permutation_cons_append.
  - constructor; assumption.
Qed.

Lemma step_inv s c o s' :
  step s c = (o, s') -> no_dup_push s c ->
  NoDup (stack s) -> deps_match s -> NoDup (stack s') /\ deps_match s'.
Proof.
  intros E Hnd ND DM. destruct c as [t| |t|t|t| |n]; simpl in E.
  - unfold push in E. destruct (nbJoints s =? 0)%N; inversion E; subst; auto. simpl in *. split.
    + apply NoDup_snoc; assumption.
    + intros u. simpl. rewrite !in_app_iff. simpl.
      destruct (DM u) as [D1 D2]. rewrite D1, D2. intuition congruence.
  - unfold pop in E. destruct (rev (stack s)) as [|t r] eqn:R; inversion E; subst; auto.
    assert (Es : stack s = rev r ++ [t]).
    { rewrite <- (rev_involutive (stack s)), R. reflexivity. }
    simpl. rewrite Es, removelast_last.
    rewrite Es in ND. split.
    + apply NoDup_remove_1 in ND. rewrite app_nil_r in ND. exact ND.
    + apply NoDup_remove_2 in ND. rewrite app_nil_r in ND.
      intros u. simpl. rewrite !in_removeDependency.
      destruct (DM u) as [D1 D2]. rewrite D1, D2, Es, in_app_iff. simpl.
      destruct (Nat.eq_dec u t) as [->|Hne]; [|intuition congruence].
      intuition congruence.
  - inversion E; subst.
    destruct (in_dec Nat.eq_dec t (stack s)) as [Hin|Hout].
    + destruct (find_it (stack s) t) as [i|] eqn:F.
      * destruct (find_it_some _ _ _ F) as (l1 & l2 & E1 & Hn & _).
        rewrite (remove_eq s l1 t l2 E1 Hn). simpl.
        rewrite E1 in ND. split.
        -- eapply NoDup_remove_1; eauto.
        -- apply NoDup_remove_2 in ND. intros u. simpl.
           rewrite !in_removeDependency. destruct (DM u) as [D1 D2].
           rewrite D1, D2, E1, !in_app_iff. simpl.
           rewrite in_app_iff in ND.
           destruct (Nat.eq_dec u t) as [->|Hne]; intuition congruence.
      * apply find_it_none in F. contradiction.
    + rewrite remove_absent by auto. auto.
  - inversion E; subst. destruct (up_spec s t) as [->|(l1 & x & l2 & E1 & Hn & ->)]; auto.
    simpl. split.
    + rewrite E1 in ND. eapply Permutation_NoDup; [|exact ND].
      apply Permutation_app_head. constructor.
    + apply deps_match_perm; auto. intros y. rewrite E1, !in_app_iff. simpl. tauto.
  - inversion E; subst. destruct (down_spec s t) as [->|(l1 & x & l2 & E1 & Hn & ->)]; auto.
    simpl. split.
    + rewrite E1 in ND. eapply Permutation_NoDup; [|exact ND].
      apply Permutation_app_head. constructor.
    + apply deps_match_perm; auto. intros y. rewrite E1, !in_app_iff. simpl. tauto.
  - inversion E; subst. simpl. split; [constructor|].
    intros u. simpl. rewrite !in_clear_deps. destruct (DM u) as [D1 D2].
    rewrite D1, D2. split; split; try tauto.
    + intros [H1 H2]. destruct (H2 u H1). congruence.
    + intros [H1 H2]. destruct (H2 u H1). congruence.
  - inversion E; subst. simpl. auto.
Qed.
