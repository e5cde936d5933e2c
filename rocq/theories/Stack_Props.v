(** Theorems about the task stack (properties C05-C08 and C15). *)
From Coq Require Import String Ascii List Arith Lia ZArith Bool Permutation.
From Verif Require Import Base Stack_Model Stack_Proofs.
Import ListNotations.

(** ** C05: the documented list edits, as a relation between the priority list
    before and after a command (highest priority first). *)
Inductive edit_spec : list task -> cmd -> list task -> Prop :=
| S_push l t : edit_spec l (CPush t) (l ++ [t])
| S_pop l t : edit_spec (l ++ [t]) CPop l
| S_remove l1 t l2 : ~ In t l1 -> edit_spec (l1 ++ t :: l2) (CRemove t) (l1 ++ l2)
| S_remove_absent l t : ~ In t l -> edit_spec l (CRemove t) l
| S_up l1 x t l2 : ~ In t (l1 ++ [x]) ->
    edit_spec (l1 ++ x :: t :: l2) (CUp t) (l1 ++ t :: x :: l2)
| S_up_first t l : edit_spec (t :: l) (CUp t) (t :: l)
| S_up_absent l t : ~ In t l -> edit_spec l (CUp t) l
| S_down l1 x t l2 : ~ In t l1 ->
    edit_spec (l1 ++ t :: x :: l2) (CDown t) (l1 ++ x :: t :: l2)
| S_down_last l t : ~ In t l -> edit_spec (l ++ [t]) (CDown t) (l ++ [t])
| S_down_absent l t : ~ In t l -> edit_spec l (CDown t) l
| S_clear l : edit_spec l CClear []
| S_size l n : edit_spec l (CSetSize n) l.

Lemma spec_step l c l' :
  edit_spec l c l' -> stack (snd (step (mkSot l 1 []) c)) = l'.
Proof.
  intros H; destruct H; simpl.
  - reflexivity.
  - rewrite (pop_eq (mkSot (l ++ [t]) 1 []) l t eq_refl). reflexivity.
  - rewrite (remove_eq (mkSot (l1 ++ t :: l2) 1 []) l1 t l2 eq_refl H). reflexivity.
  - rewrite (remove_absent (mkSot l 1 []) t H). reflexivity.
  - rewrite (up_eq (mkSot (l1 ++ x :: t :: l2) 1 []) l1 x t l2 eq_refl H). reflexivity.
  - rewrite (up_first (mkSot (t :: l) 1 []) t l eq_refl). reflexivity.
  - rewrite (up_absent (mkSot l 1 []) t H). reflexivity.
  - rewrite (down_eq (mkSot (l1 ++ t :: x :: l2) 1 []) l1 x t l2 eq_refl H). reflexivity.
  - rewrite (down_last (mkSot (l ++ [t]) 1 []) l t eq_refl H). reflexivity.
  - rewrite (down_absent (mkSot l 1 []) t H). reflexivity.
  - reflexivity.
  - reflexivity.
Qed.

(** The specification determines the result. *)
Theorem stack_spec_deterministic : forall l c l1 l2,
  edit_spec l c l1 -> edit_spec l c l2 -> l1 = l2.
Proof. intros l c l1 l2 H1 H2. apply spec_step in H1, H2. congruence. Qed.

Theorem stack_command_spec : forall s c s',
  step s c = (Ok tt, s') -> edit_spec (stack s) c (stack s').
Proof.
  intros s c s' E. destruct c as [t| |t|t|t| |n]; simpl in E.
  - unfold push in E. destruct (nbJoints s =? 0)%N; inversion E. constructor.
  - unfold pop in E. destruct (rev (stack s)) as [|t r] eqn:R; inversion E; subst. simpl.
    assert (Es : stack s = rev r ++ [t]).
    { rewrite <- (rev_involutive (stack s)), R. reflexivity. }
    rewrite Es, removelast_last. constructor.
  - inversion E; subst. destruct (in_dec Nat.eq_dec t (stack s)) as [Hin|Hout].
    + destruct (find_it (stack s) t) as [i|] eqn:F.
      * destruct (find_it_some _ _ _ F) as (l1 & l2 & E1 & Hn & _).
        rewrite (remove_eq s l1 t l2 E1 Hn), E1. simpl. constructor; auto.
      * apply find_it_none in F. contradiction.
    + rewrite remove_absent by auto. constructor; auto.
  - inversion E; subst. destruct (in_dec Nat.eq_dec t (stack s)) as [Hin|Hout].
    + destruct (find_it (stack s) t) as [i|] eqn:F; [|apply find_it_none in F; contradiction].
      destruct (find_it_some _ _ _ F) as (l1 & l2 & E1 & Hn & HL).
      destruct l1 as [|y l1'] using rev_ind.
      * rewrite (up_first s t l2 E1), E1. constructor.
      * clear IHl1'. rewrite <- app_assoc in E1. simpl in E1.
        rewrite (up_eq s l1' y t l2 E1 Hn), E1. constructor; auto.
    + rewrite up_absent by auto. constructor; auto.
  - inversion E; subst. destruct (in_dec Nat.eq_dec t (stack s)) as [Hin|Hout].
    + destruct (find_it (stack s) t) as [i|] eqn:F; [|apply find_it_none in F; contradiction].
      destruct (find_it_some _ _ _ F) as (l1 & l2 & E1 & Hn & HL).
      destruct l2 as [|x l2].
      * rewrite (down_last s l1 t E1 Hn), E1. constructor; auto.
      * rewrite (down_eq s l1 x t l2 E1 Hn), E1. constructor; auto.
    + rewrite down_absent by auto. constructor; auto.
  - inversion E; subst. constructor.
  - inversion E; subst. constructor.
Qed.

(** A command is refused exactly when it pushes on an unsized robot, and then
    nothing changes; it is undefined exactly when it pops an empty stack. *)
Theorem stack_command_refused : forall s c s' w,
  step s c = (Throw w, s') ->
  s' = s /\ nbJoints s = 0%N /\ exists t, c = CPush t.
Proof.
  intros s c s' w E. destruct c as [t| |t|t|t| |n]; simpl in E; try discriminate.
  - unfold push in E. destruct (N.eqb_spec (nbJoints s) 0); inversion E; subst; eauto.
  - unfold pop in E. destruct (rev (stack s)); simpl in E; discriminate.
Qed.

Theorem stack_command_undefined : forall s c,
  fst (step s c) = UB <-> c = CPop /\ stack s = [].
Proof.
  intros s c. split.
  - destruct c as [t| |t|t|t| |n]; simpl; try discriminate.
    + unfold push. destruct (nbJoints s =? 0)%N; simpl; discriminate.
    + unfold pop. destruct (rev (stack s)) eqn:R; simpl; [|discriminate].
      intros _. split; auto. rewrite <- (rev_involutive (stack s)), R. reflexivity.
  - intros [-> E]. simpl. rewrite (pop_empty s E). reflexivity.
Qed.

(** Whole histories: the stack is obtained by applying the documented edits of
    the accepted commands one after the other; refused pushes do nothing. *)
Inductive history : N -> list task -> list cmd -> N -> list task -> Prop :=
| H_nil n l : history n l [] n l
| H_refused l t cs n' l' : history 0 l cs n' l' -> history 0 l (CPush t :: cs) n' l'
| H_size n l m cs n' l' : history m l cs n' l' -> history n l (CSetSize m :: cs) n' l'
| H_edit n l c l1 cs n' l' :
    (forall t, c = CPush t -> n <> 0%N) -> (forall m, c <> CSetSize m) ->
    edit_spec l c l1 -> history n l1 cs n' l' -> history n l (c :: cs) n' l'.

Theorem stack_history : forall cs s s',
  run s cs = Some s' -> history (nbJoints s) (stack s) cs (nbJoints s') (stack s').
Proof.
  induction cs as [|c cs IH]; intros s s' E; simpl in E.
  - inversion E; subst. constructor.
  - destruct (step s c) as [o s1] eqn:Es.
    destruct o as [[]|w|]; [| |discriminate].
    + pose proof (stack_command_spec _ _ _ Es) as Hs. apply IH in E.
      destruct c as [t| |t|t|t| |n].
      * assert (Hn : nbJoints s1 = nbJoints s /\ nbJoints s <> 0%N).
        { simpl in Es. unfold push in Es. destruct (N.eqb_spec (nbJoints s) 0); inversion Es; subst; auto. }
        destruct Hn as [Hn1 Hn2]. rewrite Hn1 in E.
        eapply H_edit; eauto; intros; congruence.
      * assert (Hn : nbJoints s1 = nbJoints s).
        { simpl in Es. unfold pop in Es. destruct (rev (stack s)); inversion Es; reflexivity. }
        rewrite Hn in E. eapply H_edit; eauto; intros; congruence.
      * assert (Hn : nbJoints s1 = nbJoints s).
        { simpl in Es. inversion Es; subst. unfold remove. destruct (find_it (stack s) t); reflexivity. }
        rewrite Hn in E. eapply H_edit; eauto; intros; congruence.
      * assert (Hn : nbJoints s1 = nbJoints s).
        { simpl in Es. inversion Es; subst. unfold up. destruct (find_it (stack s) t) as [[|]|]; reflexivity. }
        rewrite Hn in E. eapply H_edit; eauto; intros; congruence.
      * assert (Hn : nbJoints s1 = nbJoints s).
        { simpl in Es. inversion Es; subst. unfold down. destruct (find_it (stack s) t); reflexivity. }
        rewrite Hn in E. eapply H_edit; eauto; intros; congruence.
      * assert (Hn : nbJoints s1 = nbJoints s) by (simpl in Es; inversion Es; reflexivity).
        rewrite Hn in E. eapply H_edit; eauto; intros; congruence.
      * simpl in Es. inversion Es; subst. simpl in *. apply H_size. exact E.
    + destruct (stack_command_refused _ _ _ _ Es) as (-> & Hz & t & ->).
      apply IH in E. rewrite Hz in *. apply H_refused. exact E.
Qed.

(** Moving a task keeps the relative order of all the others. *)
Theorem stack_moves_keep_other_order : forall s t,
  filter (fun x => negb (x =? t)) (stack (up s t)) = filter (fun x => negb (x =? t)) (stack s) /\
  filter (fun x => negb (x =? t)) (stack (down s t)) = filter (fun x => negb (x =? t)) (stack s) /\
  filter (fun x => negb (x =? t)) (stack (remove s t)) = filter (fun x => negb (x =? t)) (stack s).
Proof.
  intros s t. split; [|split].
  - destruct (up_spec s t) as [->|(l1 & x & l2 & E & Hn & ->)]; auto.
    simpl. rewrite E, !filter_app. simpl. rewrite Nat.eqb_refl. reflexivity.
  - destruct (down_spec s t) as [->|(l1 & x & l2 & E & Hn & ->)]; auto.
    simpl. rewrite E, !filter_app. simpl. rewrite Nat.eqb_refl. reflexivity.
  - destruct (find_it (stack s) t) as [i|] eqn:F.
    + destruct (find_it_some _ _ _ F) as (l1 & l2 & E & Hn & _).
      rewrite (remove_eq s l1 t l2 E Hn), E. simpl. rewrite !filter_app. simpl.
      rewrite Nat.eqb_refl. reflexivity.
    + apply find_it_none in F. rewrite remove_absent by auto. reflexivity.
Qed.

(** How often each task occurs: only push adds, only remove/pop/clear lose. *)
Theorem stack_count : forall s c s' (t : task),
  step s c = (Ok tt, s') ->
  let n := count_occ Nat.eq_dec (stack s) t in
  let n' := count_occ Nat.eq_dec (stack s') t in
  match c with
  | CPush u => n' = n + (if u =? t then 1 else 0)
  | CPop => forall l u, stack s = l ++ [u] -> n = n' + (if u =? t then 1 else 0)
  | CRemove u => n' = n - (if u =? t then 1 else 0)
  | CUp _ | CDown _ | CSetSize _ => n' = n
  | CClear => n' = 0
  end.
Proof.
  intros s c s' t E. apply stack_command_spec in E. simpl.
  assert (Hd : forall u, (if Nat.eq_dec u t then 1 else 0) = (if u =? t then 1 else 0)).
  { intros u. destruct (Nat.eq_dec u t), (Nat.eqb_spec u t); congruence. }
  assert (Hc : forall l u, count_occ Nat.eq_dec (u :: l) t =
             (if u =? t then 1 else 0) + count_occ Nat.eq_dec l t).
  { intros l u. rewrite <- Hd. simpl. destruct (Nat.eq_dec u t); reflexivity. }
  assert (H0 : forall l u, ~ In u l -> (if u =? t then count_occ Nat.eq_dec l t else 0) = 0).
  { intros l u Hu. destruct (Nat.eqb_spec u t) as [->|]; auto. apply count_occ_not_In; auto. }
  inversion E; subst; rewrite ?count_occ_app, ?Hc, ?count_occ_nil; auto; try lia.
  - intros l u El. apply app_inj_tail in El. destruct El as [-> ->]. rewrite Nat.add_0_r. reflexivity.
  - pose proof (H0 _ _ H3). destruct (t0 =? t); lia.
Qed.

Theorem stack_exist_iff : forall s t, exist s t = true <-> In t (stack s).
Proof. exact exist_iff. Qed.

Example stack_history_ex :
  match run init [CSetSize 7; CPush 1; CPush 2; CPush 3; CUp 3; CDown 1; CRemove 2; CPush 2] with
  | Some s => stack s = [3; 1; 2]
  | None => False
  end.
Proof. reflexivity. Qed.

(** ** C06 *)
Theorem stack_down_after_up : forall s t l1 x l2,
  stack s = l1 ++ x :: t :: l2 -> ~ In t (l1 ++ [x]) -> down (up s t) t = s.
Proof.
  intros s t l1 x l2 E H. rewrite (up_eq s l1 x t l2 E H).
  rewrite (down_eq (mkSot (l1 ++ t :: x :: l2) (nbJoints s) (deps s)) l1 x t l2 eq_refl).
  - simpl. rewrite <- E. destruct s; reflexivity.
  - intros Hin. apply H. apply in_or_app. auto.
Qed.

Theorem stack_up_after_down : forall s t l1 x l2,
  stack s = l1 ++ t :: x :: l2 -> ~ In t l1 -> x <> t -> up (down s t) t = s.
Proof.
  intros s t l1 x l2 E H Hx. rewrite (down_eq s l1 x t l2 E H).
  rewrite (up_eq (mkSot (l1 ++ x :: t :: l2) (nbJoints s) (deps s)) l1 x t l2 eq_refl).
  - simpl. rewrite <- E. destruct s; reflexivity.
  - rewrite in_app_iff. simpl. intuition.
Qed.

Theorem stack_extreme_moves_do_nothing : forall s t,
  (forall l, stack s = t :: l -> up s t = s) /\
  (forall l, stack s = l ++ [t] -> ~ In t l -> down s t = s) /\
  (~ In t (stack s) -> up s t = s /\ down s t = s /\ remove s t = s).
Proof.
  intros s t. split; [|split].
  - intros l E. eapply up_first; eauto.
  - intros l E H. eapply down_last; eauto.
  - intros H. rewrite up_absent, down_absent, remove_absent by auto. auto.
Qed.

Example stack_moves_ex :
  stack (up (mkSot [1;2;3] 5 []) 3) = [1;3;2] /\
  down (up (mkSot [1;2;3] 5 []) 3) 3 = mkSot [1;2;3] 5 [].
Proof. split; reflexivity. Qed.

(** ** C07 *)
Fixpoint no_dup_pushes (s : Sot) (cs : list cmd) : Prop :=
  match cs with
  | [] => True
  | c :: r =>
      match c with CPush t => ~ In t (stack s) | _ => True end /\
      no_dup_pushes (snd (step s c)) r
  end.

Theorem stack_dependencies_match : forall cs s,
  run init cs = Some s -> no_dup_pushes init cs ->
  forall t, (In (DTask t) (deps s) <-> In t (stack s)) /\
            (In (DJac t) (deps s) <-> In t (stack s)).
Proof.
  assert (Hgen : forall cs s0 s, NoDup (stack s0) -> deps_match s0 ->
            run s0 cs = Some s -> no_dup_pushes s0 cs -> deps_match s).
  { induction cs as [|c cs IH]; intros s0 s ND DM E HD; simpl in E.
    - inversion E; subst; auto.
    - simpl in HD. destruct HD as [HD1 HD2].
      destruct (step s0 c) as [o s1] eqn:Es. simpl in HD2.
      assert (HH : no_dup_push s0 c) by (destruct c; simpl; auto).
      destruct (step_inv s0 c o s1 Es HH ND DM) as [ND1 DM1].
      destruct o as [[]|w|]; [| |discriminate]; eapply IH; eauto. }
  intros cs s E HD. apply (Hgen cs init s); auto.
  - constructor.
  - intros t; simpl. intuition congruence.
Qed.

(** The control depends on the three input signals of the stack (damping, initial control,
    initial projector) and on no other, whatever the commands, even those that drop the
    dependency on a task. *)
Lemma removeDependency_input t l k : In (DIn k) (removeDependency t l) <-> In (DIn k) l.
Proof. unfold removeDependency, removeDep. rewrite !filter_In. cbn. tauto. Qed.

Theorem stack_inputs_kept : forall cs s k, run init cs = Some s -> (In (DIn k) (deps s) <-> k < 3).
Proof.
  assert (Hs : forall s c k, In (DIn k) (deps (snd (step s c))) <-> In (DIn k) (deps s)).
  { intros s c k. destruct c as [t| |t|t|t| |m]; cbn [step snd].
    - unfold push. destruct (nbJoints s =? 0)%N; cbn; [tauto|]. intuition congruence.
    - unfold pop. destruct (rev (stack s)); cbn [snd deps]; [tauto|]. apply removeDependency_input.
    - unfold remove. destruct (find_it _ _); cbn [deps]; [apply removeDependency_input|tauto].
    - unfold up. destruct (find_it _ _) as [[|]|]; cbn [deps]; tauto.
    - unfold down. destruct (find_it _ _); cbn [deps]; tauto.
    - unfold clear. cbn [deps]. generalize (stack s) (deps s). induction l as [|t l IH]; intros d; cbn; [tauto|].
      rewrite IH. apply removeDependency_input.
    - tauto. }
  assert (Hg : forall cs s0 s k, run s0 cs = Some s -> (In (DIn k) (deps s) <-> In (DIn k) (deps s0))).
  { induction cs as [|c cs IH]; intros s0 s k E; cbn in E; [injection E as <-; tauto|].
    specialize (Hs s0 c k). destruct (step s0 c) as [o s1]. cbn [snd] in Hs.
    destruct o as [[]|w|]; [| |discriminate]; rewrite (IH _ _ _ E); exact Hs. }
  intros cs s k E. rewrite (Hg _ _ _ _ E). cbn. split.
  - intros [H|[H|[H|[]]]]; injection H as <-; lia.
  - intros Hk. destruct k as [|[|[|k]]]; [tauto|tauto|tauto|lia].
Qed.

Example stack_dependencies_ex :
  let cs := [CSetSize 3; CPush 1; CPush 2; CRemove 1; CPush 1; CUp 1] in
  no_dup_pushes init cs /\
  match run init cs with
  | Some s => deps s = [DJac 1; DTask 1; DJac 2; DTask 2; DIn 2; DIn 1; DIn 0]
  | None => False end.
Proof. simpl. intuition congruence. Qed.

(** Finding: with a task pushed twice, removing one occurrence keeps the task in
    the stack but drops the dependency of the control on it. *)
Theorem stack_dependencies_duplicate_refuted :
  exists cs s t, run init cs = Some s /\ In t (stack s) /\ ~ In (DTask t) (deps s).
Proof.
  exists [CSetSize 3; CPush 1; CPush 1; CRemove 1]. eexists. exists 1.
  split; [reflexivity|]. simpl. intuition congruence.
Qed.

(** ** C08 *)
Theorem stack_empty_until_sized : forall cs s,
  run init cs = Some s -> (forall n, In (CSetSize n) cs -> n = 0%N) -> stack s = [].
Proof.
  assert (Hgen : forall cs s0 s, nbJoints s0 = 0%N -> stack s0 = [] ->
     run s0 cs = Some s -> (forall n, In (CSetSize n) cs -> n = 0%N) -> stack s = []).
  { induction cs as [|c cs IH]; intros s0 s H0 H1 E HS; simpl in E.
    - inversion E; subst; auto.
    - assert (HS' : forall n, In (CSetSize n) cs -> n = 0%N)
        by (intros; apply HS; right; auto).
      destruct c as [t| |t|t|t| |n]; simpl in E.
      + unfold push in E. rewrite H0 in E. simpl in E. eapply IH; eauto.
      + rewrite (pop_empty s0 H1) in E. discriminate.
      + rewrite remove_absent in E by (rewrite H1; auto). eapply IH; eauto.
      + rewrite up_absent in E by (rewrite H1; auto). eapply IH; eauto.
      + rewrite down_absent in E by (rewrite H1; auto). eapply IH; eauto.
      + eapply IH; [ | | exact E | auto]; auto.
      + eapply IH; [ | | exact E | auto]; simpl; auto. apply HS. left; reflexivity. }
  intros cs s. apply Hgen; reflexivity.
Qed.

Theorem stack_push_refused_iff : forall s t,
  (fst (push s t) = Throw "logic_error" <-> nbJoints s = 0%N) /\
  (nbJoints s = 0%N -> snd (push s t) = s).
Proof.
  intros s t. unfold push. destruct (N.eqb_spec (nbJoints s) 0); simpl; intuition congruence.
Qed.

Example stack_push_ex :
  fst (push init 4) = Throw "logic_error" /\
  stack (snd (push (defineNbDof init 3) 4)) = [4].
Proof. split; reflexivity. Qed.

(** ** C15 *)
Definition no_quote (n : string) : Prop := ~ In ("034"%char) (list_ascii_of_string n).

Lemma string_cancel_quote a b x y :
  no_quote a -> no_quote b ->
  (a ++ String "034" x = b ++ String "034" y)%string -> a = b /\ x = y.
Proof.
  unfold no_quote. revert b; induction a as [|c a IH]; intros [|d b] Ha Hb E; simpl in *.
  - inversion E; auto.
  - inversion E; subst. exfalso. apply Hb. left; reflexivity.
  - inversion E; subst. exfalso. apply Ha. left; reflexivity.
  - inversion E; subst. destruct (IH b) as [-> ->]; auto.
Qed.

Lemma string_app_assoc a b c : ((a ++ b) ++ c = a ++ (b ++ c))%string.
Proof. induction a; simpl; congruence. Qed.

Theorem stack_list_faithful : forall (n1 n2 : task -> string) (s1 s2 : Sot),
  (forall t, In t (stack s1) -> no_quote (n1 t)) ->
  (forall t, In t (stack s2) -> no_quote (n2 t)) ->
  list_cmd n1 s1 = list_cmd n2 s2 ->
  map n1 (stack s1) = map n2 (stack s2).
Proof.
  intros n1 n2 s1 s2. unfold list_cmd. simpl.
  generalize (stack s1) as l1, (stack s2) as l2. clear s1 s2.
  intros l1 l2 H1 H2 E. inversion E as [E']. clear E. revert l2 H1 H2 E'.
  induction l1 as [|t l1 IH]; intros [|u l2] H1 H2 E; simpl in E; auto; try discriminate.
  inversion E as [E1]. rewrite !string_app_assoc in E1. simpl in E1.
  apply string_cancel_quote in E1; [|apply H1; left; auto|apply H2; left; auto].
  destruct E1 as [En Er]. inversion Er as [Er']. simpl. rewrite En. f_equal.
  apply IH; auto; intros; [apply H1|apply H2]; right; auto.
Qed.

Example stack_list_ex :
  list_cmd (fun t => if Nat.eqb t 1 then "taskA"%string else "taskB"%string) (mkSot [1;2] 3 [])
  = "( ""taskA"", ""taskB"", )"%string.
Proof. reflexivity. Qed.

Print Assumptions stack_spec_deterministic.
Print Assumptions stack_command_spec.
Print Assumptions stack_command_refused.
Print Assumptions stack_command_undefined.
Print Assumptions stack_history.
Print Assumptions stack_moves_keep_other_order.
Print Assumptions stack_count.
Print Assumptions stack_exist_iff.
Print Assumptions stack_down_after_up.
Print Assumptions stack_up_after_down.
Print Assumptions stack_extreme_moves_do_nothing.
Print Assumptions stack_dependencies_match.
Print Assumptions stack_dependencies_duplicate_refuted.
Print Assumptions stack_empty_until_sized.
Print Assumptions stack_push_refused_iff.
Print Assumptions stack_list_faithful.
Print Assumptions stack_inputs_kept.
