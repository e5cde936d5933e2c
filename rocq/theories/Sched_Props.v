(** Theorems about the schedulers (C35, C36, C38, C39). *)
From Coq Require Import String Ascii List Arith Lia ZArith Bool Sorting.Sorted Sorting.Permutation.
From Verif Require Import Base SMap Stack_Model Sched_Model.
Import ListNotations.
Local Open Scope nat_scope.
Local Open Scope list_scope.

(* ------------------------------------------------------------------ *)
(** * Sequencer (C35) *)

(** Specification: the list of registrations, oldest first.  Removing looks for
    the oldest registration at that time with that type and name and drops the
    event object found from that time. *)
Section SeqSpec.
Variable tname : nat -> string.

(** Numbers of the types of events: addition, removal, command. *)
Definition type_number (e : ev) : Z :=
  match ekd e with KAdd _ => 0 | KRm _ => 1 | KCmd _ => 2 end%Z.
Definition matching (ty : Z) (nm : string) (t : Z) (p : Z * option ev) : bool :=
  (fst p =? t)%Z &&
  match snd p with
  | Some e => (type_number e =? ty)%Z && (ev_name tname e =? nm)%string
  | None => false
  end.
Definition same_object (t : Z) (e : ev) (p : Z * option ev) : bool :=
  (fst p =? t)%Z && match snd p with Some e' => eptr e' =? eptr e | None => false end.

Definition reg_step (l : list (Z * option ev)) (c : scall) : list (Z * option ev) :=
  match c with
  | SAdd e t => l ++ [(t, e)]
  | SRm ty nm t =>
      match find (matching ty nm t) l with
      | Some (_, Some e) => filter (fun p => negb (same_object t e p)) l
      | _ => l
      end
  | SClear => []
  | SSot _ | STrigger _ => l
  end.
Definition registered (h : list scall) : list (Z * option ev) := fold_left reg_step h [].

(** Time of the first trigger (the value -1 is the code's "not started"). *)
Definition start_step (o : option Z) (c : scall) : option Z :=
  match o, c with
  | None, STrigger t => if (t =? -1)%Z then None else Some t
  | _, _ => o
  end.
Definition started (h : list scall) : option Z := fold_left start_step h None.

(** Events due [k] ticks after the start, null pointers left out. *)
Fixpoint due (k : Z) (l : list (Z * option ev)) : list ev :=
  match l with
  | [] => []
  | (t, Some e) :: r => if (t =? k)%Z then e :: due k r else due k r
  | (_, None) :: r => due k r
  end.

(** What an event asks of the stack of tasks. *)
Definition stack_cmd (e : ev) : list cmd :=
  match ekd e with
  | KAdd (Some t) => [CPush t]
  | KRm (Some t) => [CRemove t]
  | _ => []
  end.

(** A sequencer in play mode.  No member function of the class sets this mode
    (see [sequencer_inert_refuted]). *)
Definition playing : Sequencer := mkSeq Uninit [] (-1) true.

(** ** Proofs *)
Ltac zmap := solve [assumption | exact zcmp_eq | exact zcmp_antisym | exact zcmp_trans].
Definition slot (m : list (Z * list (option ev))) (k : Z) : list (option ev) :=
  match mfind Z.compare m k with Some tl => tl | None => [] end.
Definition at_time (k : Z) (l : list (Z * option ev)) : list (option ev) :=
  map snd (filter (fun p => (fst p =? k)%Z) l).
Definition nonnull (l : list (option ev)) : list ev :=
  flat_map (fun x => match x with Some e => [e] | None => [] end) l.

Lemma due_at_time k l : due k l = nonnull (at_time k l).
Proof.
  unfold nonnull, at_time. induction l as [|[t [e|]] r IH]; simpl; auto.
  - destruct (t =? k)%Z; simpl; rewrite IH; reflexivity.
  - destruct (t =? k)%Z; simpl; auto.
Qed.

Lemma slot_mset m k tl k' :
  msorted Z.compare m -> slot (mset Z.compare m k tl) k' = if (k =? k')%Z then tl else slot m k'.
Proof.
  intros H. unfold slot. rewrite (mfind_mset _ _ _ zcmp_eq zcmp_antisym zcmp_trans) by exact H.
  destruct (Z.eqb_spec k k').
  - subst. rewrite Z.compare_refl. reflexivity.
  - destruct (Z.compare_spec k' k); try reflexivity. congruence.
Qed.
Lemma slot_merase m k k' :
  msorted Z.compare m -> slot (merase Z.compare m k) k' = if (k =? k')%Z then [] else slot m k'.
Proof.
  intros H. unfold slot. rewrite (mfind_merase _ _ _ zcmp_eq zcmp_antisym zcmp_trans) by exact H.
  destruct (Z.eqb_spec k k').
  - subst. rewrite Z.compare_refl. reflexivity.
  - destruct (Z.compare_spec k' k); try reflexivity. congruence.
Qed.

Lemma at_time_app k l1 l2 : at_time k (l1 ++ l2) = at_time k l1 ++ at_time k l2.
Proof. unfold at_time. rewrite filter_app, map_app. reflexivity. Qed.

Lemma at_time_filter t e l k :
  at_time k (filter (fun p => negb (same_object t e p)) l) =
  if (t =? k)%Z then list_remove (eptr e) (at_time k l) else at_time k l.
Proof.
  unfold at_time, list_remove. induction l as [|[t' o] r IH]; simpl.
  - destruct (t =? k)%Z; reflexivity.
  - unfold same_object at 1; simpl.
    destruct (Z.eqb_spec t' t); simpl.
    + subst t'. destruct (Z.eqb_spec t k).
      * subst t. destruct o as [e'|]; simpl.
        -- destruct (eptr e' =? eptr e) eqn:Ep; simpl.
           ++ rewrite IH. reflexivity.
           ++ rewrite Z.eqb_refl; simpl. rewrite IH. reflexivity.
        -- rewrite Z.eqb_refl; simpl. rewrite IH. reflexivity.
      * assert (Ek : (t =? k)%Z = false) by (apply Z.eqb_neq; auto).
        destruct (match o with Some e' => eptr e' =? eptr e | None => false end); simpl;
          rewrite ?Ek; exact IH.
    + destruct (Z.eqb_spec t' k); simpl; rewrite IH.
      * subst. rewrite (proj2 (Z.eqb_neq t k)) by auto. reflexivity.
      * reflexivity.
Qed.

Lemma find_event_spec ty nm t l o :
  find_event tname ty nm (at_time t l) = Ok o ->
  o = match find (matching ty nm t) l with Some (_, x) => x | None => None end.
Proof.
  unfold at_time. induction l as [|[t' x] r IH]; simpl.
  - intros [= <-]. reflexivity.
  - unfold matching at 1. simpl. destruct (t' =? t)%Z; simpl; [|exact IH].
    destruct x as [e|]; simpl; [|discriminate].
    change (getEventType e) with (type_number e). destruct ((type_number e =? ty)%Z && (ev_name tname e =? nm)%string).
    + intros [= <-]. reflexivity.
    + exact IH.
Qed.

Definition inv (s : Sequencer) (l : list (Z * option ev)) (o : option Z) : Prop :=
  msorted Z.compare (taskMap s) /\ (forall k, slot (taskMap s) k = at_time k l) /\
  playMode s = true /\
  timeInit s = match o with Some t => t | None => -1 end%Z /\ o <> Some (-1)%Z.

Lemma inv_step s l o c s' :
  inv s l o -> seq_step tname s c = Some s' -> inv s' (reg_step l c) (start_step o c).
Proof.
  intros (Hs & Ha & Hp & Ht & Ho) Hc.
  assert (Hss : forall x, x = match c with STrigger _ => start_step o c | _ => o end -> x = start_step o c).
  { intros x ->. destruct c, o; reflexivity. }
  destruct c as [e t|ty nm t| |r|t]; simpl in Hc.
  - injection Hc as <-. rewrite <- (Hss o eq_refl). unfold inv, addTask; simpl.
    assert (E : forall k, slot (mset Z.compare (taskMap s) t (slot (taskMap s) t ++ [e])) k
                          = at_time k (l ++ [(t, e)])).
    { intros k. rewrite slot_mset, at_time_app by exact Hs. unfold at_time at 2. simpl.
      destruct (Z.eqb_spec t k); simpl.
      - subst. rewrite Ha. reflexivity.
      - rewrite Ha, app_nil_r. reflexivity. }
    unfold slot at 2 in E.
    destruct (mfind Z.compare (taskMap s) t); simpl in *; repeat split; auto;
      apply mset_sorted; zmap.
  - rewrite <- (Hss o eq_refl). destruct (rmTask tname s ty nm t) as [s1| |] eqn:Er; try discriminate.
    injection Hc as <-. unfold rmTask in Er.
    destruct (mfind Z.compare (taskMap s) t) as [tl|] eqn:Ef.
    + assert (Etl : tl = at_time t l). { rewrite <- Ha. unfold slot. rewrite Ef. reflexivity. }
      destruct (find_event tname ty nm tl) as [o1| |] eqn:E1; simpl in Er; try discriminate.
      rewrite Etl in E1. apply find_event_spec in E1.
      injection Er as <-.
      set (l' := match find (matching ty nm t) l with
                 | Some (_, Some e) => filter (fun p => negb (same_object t e p)) l
                 | _ => l end).
      assert (El' : forall k, at_time k l' =
        if (t =? k)%Z then match o1 with Some e => list_remove (eptr e) tl | None => tl end
        else at_time k l).
      { intros k. unfold l'. subst o1. destruct (find (matching ty nm t) l) as [[t1 [e|]]|].
        - rewrite at_time_filter. destruct (Z.eqb_spec t k); [subst|]; reflexivity.
        - destruct (Z.eqb_spec t k); subst; reflexivity.
        - destruct (Z.eqb_spec t k); subst; reflexivity. }
      unfold inv; simpl. fold l'.
      assert (Hsort : msorted Z.compare
        (match match o1 with Some e => list_remove (eptr e) tl | None => tl end with
         | [] => merase Z.compare (taskMap s) t
         | _ :: _ => mset Z.compare (taskMap s) t match o1 with Some e => list_remove (eptr e) tl | None => tl end
         end)).
      { destruct (match o1 with Some e => list_remove (eptr e) tl | None => tl end).
        - apply merase_sorted; zmap.
        - apply mset_sorted; zmap. }
      split; [exact Hsort|]. split; [|repeat split; auto].
      { intros k. rewrite El'.
        destruct (match o1 with Some e => list_remove (eptr e) tl | None => tl end) eqn:Em.
        -- rewrite slot_merase by exact Hs. destruct (t =? k)%Z; auto.
        -- rewrite slot_mset by exact Hs. destruct (t =? k)%Z; auto. }
    + injection Er as <-. unfold inv; simpl.
      assert (Hn : at_time t l = []). { rewrite <- Ha. unfold slot. rewrite Ef. reflexivity. }
      assert (Hf : find (matching ty nm t) l = None).
      { clear -Hn. unfold at_time in Hn. induction l as [|[t' x] r IH]; simpl in *; auto.
        unfold matching at 1. simpl. destruct (t' =? t)%Z; simpl in *; [discriminate|]. auto. }
      rewrite Hf. repeat split; auto.
  - destruct (clearAll s) as [s1| |] eqn:Er; try discriminate. injection Hc as <-.
    unfold clearAll in Er. destruct (nodupb _); [|discriminate]. injection Er as <-.
    rewrite <- (Hss o eq_refl). unfold inv; simpl. repeat split; auto. constructor.
  - injection Hc as <-. rewrite <- (Hss o eq_refl). unfold inv; simpl. repeat split; auto.
  - unfold seq_trigger in Hc. rewrite Hp in Hc. simpl in Hc.
    assert (Ht0 : (if (timeInit s =? -1)%Z then t else timeInit s) =
                  match start_step o (STrigger t) with Some x => x | None => -1 end%Z).
    { rewrite Ht. destruct o as [t0|]; simpl.
      - destruct (Z.eqb_spec t0 (-1)); congruence.
      - destruct (Z.eqb_spec t (-1)); auto. }
    assert (Hne : start_step o (STrigger t) <> Some (-1)%Z).
    { destruct o as [t0|]; simpl; auto. destruct (Z.eqb_spec t (-1)); congruence. }
    destruct (in_int _).
    + destruct (mfind Z.compare (taskMap s) _).
      * destruct (run_list (sotPtr s) _) as [g r]. destruct (ended g); inversion Hc; subst;
          unfold inv; simpl; repeat split; auto.
      * simpl in Hc. injection Hc as <-. unfold inv; simpl. repeat split; auto.
    + discriminate.
Qed.

Lemma inv_run h s l o s' :
  inv s l o -> seq_run tname s h = Some s' -> inv s' (fold_left reg_step h l) (fold_left start_step h o).
Proof.
  revert s l o; induction h as [|c h IH]; intros s l o Hi Hr; simpl in *.
  - injection Hr as <-. exact Hi.
  - destruct (seq_step tname s c) as [s1|] eqn:E; [|discriminate].
    eapply IH; [|exact Hr]. eapply inv_step; eauto.
Qed.

Lemma run_app s a b :
  run s (a ++ b) = match run s a with Some s' => run s' b | None => None end.
Proof.
  revert s; induction a as [|c a IH]; intros s; cbn [app run]; auto.
  destruct (step s c) as [[]]; auto.
Qed.

Lemma run_list_spec tl r g r' :
  run_list r tl = (g, r') ->
  (exists rest, nonnull tl = ran g ++ rest /\
     (ended g = Ok tt -> rest = []) /\
     (forall w, ended g = Throw w -> exists e rest', rest = e :: rest' /\
        exists t s, ekd e = KAdd (Some t) /\ r' = Ref s /\ nbJoints s = 0%N)) /\
  (r <> Uninit -> ended g <> UB) /\
  (forall s, r = Ref s -> exists s', r' = Ref s' /\ run s (flat_map stack_cmd (ran g)) = Some s').
Proof.
  revert r g r'; induction tl as [|[e|] tl IH]; intros r g r'; simpl.
  - intros [= <- <-]. simpl. split; [|split].
    + exists []. repeat split; auto. discriminate.
    + congruence.
    + intros s ->. exists s. auto.
  - destruct (ev_run r e) as [o r1] eqn:Ee.
    assert (Hne : r <> Uninit -> o <> UB /\ (r1 <> Uninit)).
    { destruct r as [| |s]; simpl in Ee.
      - congruence.
      - injection Ee as <- <-. split; congruence.
      - destruct (ekd e) as [[t|]|[t|]|]; try (injection Ee as <- <-; split; congruence).
        unfold push in Ee. destruct (nbJoints s =? 0)%N; injection Ee as <- <-; split; congruence. }
    assert (Hst : forall s, r = Ref s -> o = Ok tt ->
              exists s1, r1 = Ref s1 /\ run s (stack_cmd e) = Some s1).
    { intros s -> ->. simpl in Ee. unfold stack_cmd.
      destruct (ekd e) as [[t|]|[t|]|] eqn:Ek; try (injection Ee as <-; eexists; split; reflexivity).
      unfold push in Ee. simpl. unfold push. destruct (nbJoints s =? 0)%N; [discriminate|].
      injection Ee as <-. eexists; split; reflexivity. }
    assert (Hth : forall w, o = Throw w -> exists t s, ekd e = KAdd (Some t) /\ r1 = Ref s /\ nbJoints s = 0%N).
    { intros w ->. destruct r as [| |s]; simpl in Ee; try discriminate.
      destruct (ekd e) as [[t|]|[t|]|] eqn:Ek; try discriminate.
      unfold push in Ee. destruct (nbJoints s =? 0)%N eqn:En; [|discriminate].
      injection Ee as _ <-. exists t, s. apply N.eqb_eq in En. auto. }
    destruct o as [[]|w|].
    + destruct (run_list r1 tl) as [g2 r2] eqn:E2. intros [= <- <-]. simpl.
      destruct (IH _ _ _ E2) as ((rest & H1 & H2 & H3) & H4 & H5).
      split; [|split].
      * exists rest. split; [rewrite H1; reflexivity|]. auto.
      * intros H. apply H4. apply Hne. exact H.
      * intros s Hs. destruct (Hst s Hs eq_refl) as (s1 & Hr1 & Hrun).
        destruct (H5 s1 Hr1) as (s2 & -> & Hrun2). exists s2. split; auto.
        rewrite run_app, Hrun. exact Hrun2.
    + intros [= <- <-]. simpl. split; [|split].
      * exists (e :: nonnull tl). repeat split; auto; try discriminate.
        intros w' [= <-]. exists e, (nonnull tl). split; [reflexivity|]. exact (Hth w eq_refl).
      * congruence.
      * intros s Hs. destruct (Hth w eq_refl) as (t & s1 & Hk & -> & Hn). exists s1. split; auto.
        subst r. simpl in Ee. rewrite Hk in Ee. unfold push in Ee. simpl.
        destruct (nbJoints s =? 0)%N; [|discriminate]. injection Ee as _ ->. reflexivity.
    + intros [= <- <-]. simpl. split; [|split].
      * exists (e :: nonnull tl). repeat split; auto; discriminate.
      * intros H. destruct (Hne H). congruence.
      * intros s Hs. subst r. destruct (Hne ltac:(congruence)). congruence.
  - intros H. exact (IH _ _ _ H).
Qed.

(** In play mode, after any history of calls without undefined behaviour,
    a trigger at time [t] runs the events registered for the time elapsed
    since the first trigger, in registration order and no other, up to the
    first one that throws (which only an added task does, when the stack
    has no size); their effect on the stack of tasks is the one of the
    push and remove commands in that order. Missing: reaching the play
    mode, which no command can do, and clearing a sequence that holds one
    event twice. *)
Theorem sequencer_runs_due_events_partial : forall h s' t,
  seq_run tname playing h = Some s' ->
  let elapsed := match started h with Some t0 => (t - t0)%Z | None => 0%Z end in
  in_int elapsed = true ->
  let todo := due (elapsed mod 4294967296)%Z (registered h) in
  let '(g, s'') := seq_trigger s' t in
  (exists rest, todo = ran g ++ rest /\
     (ended g = Ok tt -> rest = []) /\
     (forall w, ended g = Throw w -> exists e rest', rest = e :: rest' /\
        exists k st, ekd e = KAdd (Some k) /\ sotPtr s'' = Ref st /\ nbJoints st = 0%N)) /\
  (sotPtr s' <> Uninit -> ended g <> UB) /\
  (forall st, sotPtr s' = Ref st ->
     exists st', sotPtr s'' = Ref st' /\ run st (flat_map stack_cmd (ran g)) = Some st').
Proof.
  intros h s' t Hr elapsed Hin todo.
  assert (Hi : inv s' (registered h) (started h)).
  { eapply inv_run; [|exact Hr]. unfold inv, playing; simpl. repeat split; auto; try constructor. discriminate. }
  destruct Hi as (Hs & Ha & Hp & Ht & Ho).
  unfold seq_trigger. rewrite Hp. cbn [negb].
  assert (He : (t - (if (timeInit s' =? -1)%Z then t else timeInit s'))%Z = elapsed).
  { unfold elapsed. rewrite Ht. destruct (started h) as [t0|]; simpl.
    - destruct (Z.eqb_spec t0 (-1)); congruence.
    - lia. }
  rewrite He, Hin. unfold to_unsigned.
  assert (Htodo : todo = nonnull (slot (taskMap s') (elapsed mod 4294967296)%Z)).
  { unfold todo. rewrite due_at_time, Ha. reflexivity. }
  unfold slot in Htodo.
  destruct (mfind Z.compare (taskMap s') (elapsed mod 4294967296)%Z) as [tl|].
  - destruct (run_list (sotPtr s') tl) as [g r] eqn:Erl. cbn [sotPtr].
    rewrite Htodo. exact (run_list_spec tl (sotPtr s') g r Erl).
  - rewrite Htodo. cbn. split; [|split].
    + exists []. repeat split; auto. discriminate.
    + congruence.
    + intros st ->. exists st. auto.
Qed.

(** Finding: no member function starts the play mode, so that a sequencer never
    runs anything: every trigger after every history of public calls. *)
Theorem sequencer_inert_refuted : forall h s' t,
  seq_run tname seq_new h = Some s' ->
  seq_trigger s' t = (mkTrig [] (Ok tt), s').
Proof.
  intros h s' t. assert (Hp : playMode seq_new = false) by reflexivity. revert Hp.
  generalize seq_new as s. induction h as [|c h IH]; intros s Hp Hr; simpl in Hr.
  - injection Hr as <-. unfold seq_trigger. rewrite Hp. reflexivity.
  - destruct (seq_step tname s c) as [s1|] eqn:E; [|discriminate].
    apply (IH s1); auto. destruct c as [e t'|ty nm t'| |r|t']; simpl in E.
    + injection E as <-. exact Hp.
    + unfold rmTask in E. destruct (mfind _ _ _); [|injection E as <-; exact Hp].
      destruct (find_event _ _ _ _); simpl in E; try discriminate. injection E as <-. exact Hp.
    + unfold clearAll in E. destruct (nodupb _); [|discriminate]. injection E as <-. exact Hp.
    + injection E as <-. exact Hp.
    + unfold seq_trigger in E. rewrite Hp in E. simpl in E. injection E as <-. exact Hp.
Qed.
(** *** Clearing *)
Definition held (s : Sequencer) (l : list (Z * option ev)) : Prop :=
  exists o, inv (mkSeq (sotPtr s) (taskMap s) (timeInit s) true) l o.

Lemma held_step s l c s' : held s l -> seq_step tname s c = Some s' -> held s' (reg_step l c).
Proof.
  intros [o Hi] Hc. destruct (playMode s) eqn:Ep.
  - exists (start_step o c). assert (Es : s = mkSeq (sotPtr s) (taskMap s) (timeInit s) true).
    { destruct s; simpl in *; congruence. }
    rewrite <- Es in Hi. pose proof (inv_step _ _ _ _ _ Hi Hc) as Hi'.
    destruct Hi' as (A & B & C & D & E). repeat split; auto.
  - destruct c as [e t|ty nm t| |r|t].
    1-4: exists o;
      match goal with |- inv _ (reg_step _ ?c) _ =>
        replace o with (start_step o c) by (destruct o; reflexivity) end;
      eapply inv_step; [exact Hi|]; simpl in *.
    + injection Hc as <-. reflexivity.
    + unfold rmTask in *. cbn [taskMap] in *. destruct (mfind Z.compare (taskMap s) t).
      * destruct (find_event tname ty nm l0); simpl in *; try discriminate. injection Hc as <-. reflexivity.
      * injection Hc as <-. reflexivity.
    + unfold clearAll in *. cbn [taskMap] in *. destruct (nodupb _); try discriminate.
      injection Hc as <-. reflexivity.
    + injection Hc as <-. reflexivity.
    + simpl in Hc. unfold seq_trigger in Hc. rewrite Ep in Hc. simpl in Hc. injection Hc as <-.
      exists o. exact Hi.
Qed.
Lemma held_run h s l s' : held s l -> seq_run tname s h = Some s' -> held s' (fold_left reg_step h l).
Proof.
  revert s l; induction h as [|c h IH]; intros s l Hi Hr; simpl in *.
  - injection Hr as <-. exact Hi.
  - destruct (seq_step tname s c) as [s1|] eqn:E; [|discriminate].
    eapply IH; [|exact Hr]. eapply held_step; eauto.
Qed.

Lemma split_at k (l : list (Z * option ev)) :
  Permutation (map snd l) (at_time k l ++ map snd (filter (fun p => negb (fst p =? k)%Z) l)).
Proof.
  unfold at_time. induction l as [|[t x] r IH]; simpl; [constructor|].
  destruct (t =? k)%Z; simpl.
  - constructor. exact IH.
  - rewrite IH. apply Permutation_middle.
Qed.
Lemma at_time_other k k' l :
  at_time k' (filter (fun p => negb (fst p =? k)%Z) l) = if (k =? k')%Z then [] else at_time k' l.
Proof.
  unfold at_time. induction l as [|[t x] r IH]; simpl; [destruct (k =? k')%Z; reflexivity|].
  destruct (Z.eqb_spec t k); simpl.
  - rewrite IH. destruct (Z.eqb_spec k k'); [reflexivity|].
    destruct (Z.eqb_spec t k'); [congruence|reflexivity].
  - destruct (Z.eqb_spec t k'); simpl; rewrite IH; [|reflexivity].
    destruct (Z.eqb_spec k k'); [congruence|reflexivity].
Qed.
Lemma map_all m : forall l, msorted Z.compare m -> (forall k, slot m k = at_time k l) ->
  Permutation (concat (map snd m)) (map snd l).
Proof.
  induction m as [|[k v] m IH]; intros l Hs Ha.
  - destruct l as [|[t x] r]; [constructor|]. exfalso.
    specialize (Ha t). unfold at_time in Ha. simpl in Ha. rewrite Z.eqb_refl in Ha. discriminate.
  - simpl. rewrite (split_at k l).
    pose proof (Ha k) as Hk. unfold slot in Hk. simpl in Hk. rewrite Z.compare_refl in Hk. subst v.
    apply Permutation_app_head.
    assert (Hs' : msorted Z.compare m) by (inversion Hs; assumption).
    apply IH; [exact Hs'|]. intros k'. rewrite at_time_other.
    assert (E := slot_merase ((k, at_time k l) :: m) k k' Hs). simpl in E.
    rewrite Z.compare_refl in E. rewrite E, Ha. reflexivity.
Qed.
Lemma ptrs_nonnull l : ptrs l = map eptr (nonnull l).
Proof. induction l as [|[e|] r IH]; simpl; [|rewrite IH|]; auto. Qed.
Lemma nodupb_iff l : nodupb l = true <-> NoDup l.
Proof.
  induction l as [|x r IH]; simpl.
  - split; [constructor|reflexivity].
  - rewrite andb_true_iff, negb_true_iff, IH. split.
    + intros [A B]. constructor; [|exact B]. intros Hin.
      assert (X : existsb (Nat.eqb x) r = true) by (apply existsb_exists; exists x; rewrite Nat.eqb_refl; auto).
      congruence.
    + intros A. inversion A; subst. split; [|assumption].
      destruct (existsb (Nat.eqb x) r) eqn:E; [|reflexivity].
      apply existsb_exists in E. destruct E as (y & Hy & Ey). apply Nat.eqb_eq in Ey. subst. contradiction.
Qed.

(** Finding: addTask accepts a null pointer, which is skipped when its time comes; removing an event at that time
    dereferences it, when nothing was registered there before. *)
Theorem sequencer_null_refuted : forall h s' ty nm t,
  seq_run tname playing h = Some s' -> due t (registered h) = [] -> (forall x, In (t, x) (registered h) -> x <> None) ->
  seq_run tname playing (h ++ [SAdd None t; SRm ty nm t]) = None.
Proof.
  intros h s' ty nm t Hr Hd Hn.
  assert (Hi : inv s' (registered h) (started h)).
  { eapply inv_run; [|exact Hr]. unfold inv, playing; simpl. repeat split; auto; try constructor. discriminate. }
  destruct Hi as (Hs & Ha & _).
  assert (R : forall h1 h2 s, seq_run tname s (h1 ++ h2) = match seq_run tname s h1 with Some s1 => seq_run tname s1 h2 | None => None end).
  { induction h1 as [|c h1 IH]; intros h2 s; [reflexivity|]. cbn. destruct (seq_step tname s c); auto. }
  rewrite R, Hr. cbn [seq_run seq_step].
  assert (S0 : slot (taskMap s') t = []).
  { rewrite Ha. rewrite due_at_time in Hd. unfold at_time in *. clear - Hd Hn.
    induction (registered h) as [|[k x] l IH]; [reflexivity|]. cbn in *. destruct (Z.eqb_spec k t) as [->|]; cbn in *.
    - destruct x as [e|]; [discriminate Hd|]. exfalso. apply (Hn None); auto.
    - apply IH; [exact Hd|]. intros y I. apply Hn. now right. }
  unfold addTask, rmTask. unfold slot in S0.
  destruct (mfind Z.compare (taskMap s') t) as [tl|] eqn:E; cbn [taskMap];
    rewrite (mfind_mset _ _ _ zcmp_eq zcmp_antisym zcmp_trans) by exact Hs; rewrite Z.compare_refl; [subst tl|]; reflexivity.
Qed.

(** Clearing after any history: it empties the program and changes nothing else when every event object is
    registered once, and deletes an object twice otherwise. *)
Theorem sequencer_clear : forall s0 h s',
  s0 = seq_new \/ s0 = playing -> seq_run tname s0 h = Some s' ->
  let objects := flat_map (fun p => match snd p with Some e => [eptr e] | None => [] end) (registered h) in
  (NoDup objects -> clearAll s' = Ok (mkSeq (sotPtr s') [] (timeInit s') (playMode s'))) /\
  (~ NoDup objects -> clearAll s' = UB).
Proof.
  intros s0 h s' H0 Hr objects.
  assert (Hh : held s' (registered h)).
  { eapply held_run; [|exact Hr]. exists None.
    destruct H0 as [-> | ->]; unfold inv; simpl; repeat split; auto; try constructor; discriminate. }
  destruct Hh as (o & Hs & Ha & _). simpl in Hs, Ha.
  pose proof (map_all _ _ Hs Ha) as Hp.
  assert (Ho : objects = ptrs (map snd (registered h))).
  { unfold objects. generalize (registered h) as l.
    induction l as [|[t [e|]] r IH]; simpl; [|rewrite IH|]; auto. }
  assert (Hp' : Permutation (ptrs (concat (map snd (taskMap s')))) objects).
  { rewrite Ho, !ptrs_nonnull. apply Permutation_map. unfold nonnull. apply Permutation_flat_map. exact Hp. }
  unfold clearAll. destruct (nodupb _) eqn:En; split; intros Hn; auto.
  - exfalso. apply Hn. apply (Permutation_NoDup Hp'). apply nodupb_iff. exact En.
  - exfalso. apply Permutation_sym in Hp'. pose proof (Permutation_NoDup Hp' Hn) as X.
    apply nodupb_iff in X. congruence.
Qed.
End SeqSpec.

(** Non-vacuity: two additions and one removal of tasks, run on a stack. *)
Definition ex_seq_hist : list scall :=
  [ SSot (Ref (mkSot [] 7 []));
    SAdd (Some (mkEv 1 (KAdd (Some 10)))) 0; SAdd (Some (mkEv 2 (KAdd (Some 11)))) 3;
    SAdd (Some (mkEv 3 (KRm (Some 10)))) 3; SAdd (Some (mkEv 4 (KAdd (Some 12)))) 3;
    SRm 0 "t" 3; STrigger 100 ].
Example sequencer_example :
  match seq_run (fun _ => "t"%string) playing ex_seq_hist with
  | Some s' =>
    started ex_seq_hist = Some 100%Z /\
    ran (fst (seq_trigger s' 103)) = [mkEv 3 (KRm (Some 10)); mkEv 4 (KAdd (Some 12))] /\
    ran (fst (seq_trigger s' 104)) = [] /\
    match sotPtr (snd (seq_trigger s' 103)) with Ref st => stack st = [12] | _ => False end
  | None => False
  end.
Proof. vm_compute. repeat split; reflexivity. Qed.

Example sequencer_clear_case :
  match seq_run (fun _ => "t"%string) seq_new (ex_seq_hist ++ [SAdd None 5]) with
  | Some s' => clearAll s' = Ok (mkSeq (sotPtr s') [] (timeInit s') (playMode s')) /\ taskMap s' <> []
  | None => False
  end.
Proof. vm_compute. split; [reflexivity|discriminate]. Qed.

(** Finding: clearing deletes every registration: an event registered at two
    instants is deleted twice. *)
Theorem sequencer_clear_shared_event_refuted : forall tname s e t1 t2,
  t1 <> t2 -> taskMap s = [] ->
  clearAll (addTask (addTask s (Some e) t1) (Some e) t2) = UB /\
  seq_run tname s [SAdd (Some e) t1; SAdd (Some e) t2; SClear] = None.
Proof.
  intros tname s e t1 t2 Hne He.
  assert (X : clearAll (addTask (addTask s (Some e) t1) (Some e) t2) = UB).
  { unfold addTask. simpl. rewrite He. simpl. unfold clearAll. simpl.
    destruct (Z.compare_spec t2 t1); [congruence| |]; simpl; rewrite Nat.eqb_refl; reflexivity. }
  split; auto. simpl. rewrite X. reflexivity.
Qed.

Print Assumptions sequencer_runs_due_events_partial.
Print Assumptions sequencer_inert_refuted.
Print Assumptions sequencer_clear.
Print Assumptions sequencer_clear_shared_event_refuted.

(* ------------------------------------------------------------------ *)
(** * Periodic call (C36) *)

(** Specification: the last registration of a name that was not removed since. *)
Definition latest_step (n : string) (acc : option (nat * Z)) (c : pcall) : option (nat * Z) :=
  match c with
  | PAdd n' s => if (n' =? n)%string then Some (s, 1%Z) else acc
  | PAddDown n' s f => if (n' =? n)%string then Some (s, f) else acc
  | PRm n' => if (n' =? n)%string then None else acc
  | PClear | PTriggerOnce _ => None
  | PTrigger _ => acc
  end.
Definition latest (h : list pcall) (n : string) : option (nat * Z) :=
  fold_left (latest_step n) h None.

Ltac smap := solve [assumption | exact scmp_eq | exact scmp_antisym | exact scmp_trans].

Lemma pc_inv h : forall p (acc : string -> option (nat * Z)),
  msorted scmp p ->
  (forall n, acc n = match mfind scmp p n with Some c => Some (psig c, factor c) | None => None end) ->
  let p' := fold_left pc_step h p in
  msorted scmp p' /\
  forall n, fold_left (latest_step n) h (acc n) =
            match mfind scmp p' n with Some c => Some (psig c, factor c) | None => None end.
Proof.
  induction h as [|c h IH]; intros p acc Hs Ha p'; simpl in *; auto.
  apply (IH (pc_step p c) (fun n => latest_step n (acc n) c)).
  - destruct c; simpl; auto; try (apply mset_sorted; smap); try (apply merase_sorted; smap); constructor.
  - assert (Hcmp : forall a b, (a =? b)%string = match scmp b a with Eq => true | _ => false end).
    { intros a b. destruct (String.eqb_spec a b).
      - subst. rewrite (proj2 (scmp_eq b b) eq_refl). reflexivity.
      - destruct (scmp b a) eqn:E; auto. apply scmp_eq in E. congruence. }
    intros n. destruct c as [n' s|n' s f|n'| |t|t]; simpl; auto; unfold pc_add, pc_add_down, pc_rm.
    + rewrite mfind_mset by smap. rewrite Hcmp, Ha. destruct (scmp n n'); reflexivity.
    + rewrite mfind_mset by smap. rewrite Hcmp, Ha. destruct (scmp n n'); reflexivity.
    + rewrite mfind_merase by smap. rewrite Hcmp, Ha. destruct (scmp n n'); reflexivity.
Qed.

Lemma pc_latest h :
  msorted scmp (pc_run h) /\
  forall n s f, latest h n = Some (s, f) <-> In (n, mkStc s f) (pc_run h).
Proof.
  destruct (pc_inv h [] (fun _ => None) (msorted_nil _ _ _) (fun _ => eq_refl)) as (Hs & Ha).
  split; [exact Hs|]. intros n s f. unfold latest.
  assert (X := mfind_in _ _ scmp scmp_eq scmp_antisym (pc_run h) n (mkStc s f) Hs). unfold pc_run in *.
  rewrite <- X, (Ha n). destruct (mfind scmp (fold_left pc_step h []) n) as [[s' f']|]; simpl; split; congruence.
Qed.

Definition name_lt (a b : string * nat) : Prop := scmp (fst a) (fst b) = Lt.

Lemma runSignals_spec p t :
  msorted scmp p -> (forall n c, In (n, c) p -> factor c <> 0%Z) ->
  exists l, runSignals p t = Ok l /\ StronglySorted name_lt l /\
  forall n s, In (n, s) l <-> exists c, In (n, c) p /\ psig c = s /\ (to_unsigned t mod factor c = 0)%Z.
Proof.
  intros Hs. induction Hs as [|[n c] r Hs IH Hf]; intros Hz; simpl.
  - exists []. split; auto. split; [constructor|]. intros n s. split; [intros []|intros (c & [] & _)].
  - destruct (Z.eqb_spec (factor c) 0) as [E|_]; [exfalso; apply (Hz n c); simpl; auto|].
    destruct IH as (l & El & Hl & Hi). { intros; eapply Hz; right; eauto. }
    rewrite El. simpl. rewrite Forall_forall in Hf.
    destruct (Z.eqb_spec (to_unsigned t mod factor c) 0) as [E|E].
    + exists ((n, psig c) :: l). split; auto. split.
      * constructor; auto. apply Forall_forall. intros [n1 s1] H1. apply Hi in H1.
        destruct H1 as (c1 & H1 & _). exact (Hf (n1, c1) H1).
      * intros n1 s1. simpl. rewrite Hi. split.
        -- intros [[= <- <-]|(c1 & H1 & H2)]; [exists c|exists c1]; auto.
        -- intros (c1 & [[= <- <-]|H1] & <- & H2); auto. right. exists c1. auto.
    + exists l. split; auto. split; auto. intros n1 s1. rewrite Hi. split.
      * intros (c1 & H1 & H2). exists c1. auto.
      * intros (c1 & [[= <- <-]|H1] & <- & H2); [contradiction|]. exists c1. auto.
Qed.

(** After any history, when no registered factor is null, a tick at a
    non-negative time recomputes exactly the registered signals whose factor
    divides the time, each name once and in increasing order of names. *)
Theorem periodic_tick : forall h t,
  (0 <= t <= int_max)%Z ->
  (forall n s f, latest h n = Some (s, f) -> f <> 0%Z) ->
  exists l, runSignals (pc_run h) t = Ok l /\
    StronglySorted (fun a b => String.compare (fst a) (fst b) = Lt) l /\
    forall n s, In (n, s) l <-> exists f, latest h n = Some (s, f) /\ (f | t)%Z.
Proof.
  intros h t Ht Hz. destruct (pc_latest h) as (Hs & Hl).
  destruct (runSignals_spec (pc_run h) t Hs) as (l & El & Hsl & Hi).
  { intros n [s f] Hin. apply (Hz n s f). apply Hl. exact Hin. }
  exists l. split; auto. split; auto. intros n s. rewrite Hi.
  assert (Hu : to_unsigned t = t).
  { unfold to_unsigned, int_max in *. apply Z.mod_small. lia. }
  split.
  - intros ([s' f] & Hin & <- & Hm). exists f. split; [apply Hl; exact Hin|].
    simpl in *. rewrite Hu in Hm. apply Z.mod_divide; auto. apply (Hz n s' f). apply Hl. exact Hin.
  - intros (f & Hla & Hd). exists (mkStc s f). split; [apply Hl; exact Hla|]. split; auto. simpl.
    rewrite Hu. apply Z.mod_divide; auto. apply (Hz n s f Hla).
Qed.

(** Over any window of as many consecutive non-negative ticks as its factor, a
    registered signal is recomputed exactly once. *)
Theorem periodic_window : forall h n s f t0,
  (forall n s f, latest h n = Some (s, f) -> f <> 0%Z) ->
  latest h n = Some (s, f) -> (1 <= f)%Z -> (0 <= t0)%Z -> (t0 + f <= int_max)%Z ->
  exists! t, (t0 <= t < t0 + f)%Z /\
    exists l, runSignals (pc_run h) t = Ok l /\ In (n, s) l.
Proof.
  intros h n s f t0 Hz Hla Hf H0 Hm.
  assert (Hrec : forall t, (t0 <= t < t0 + f)%Z ->
    ((exists l, runSignals (pc_run h) t = Ok l /\ In (n, s) l) <-> (f | t)%Z)).
  { intros t Ht. destruct (periodic_tick h t) as (l & El & _ & Hi); auto; [unfold int_max in *; lia|].
    split.
    - intros (l' & El' & Hin). rewrite El in El'. injection El' as <-. apply Hi in Hin.
      destruct Hin as (f' & Hla' & Hd). congruence.
    - intros Hd. exists l. split; auto. apply Hi. exists f. auto. }
  set (t := (t0 + (- t0) mod f)%Z).
  assert (Hb := Z.mod_pos_bound (- t0) f ltac:(lia)).
  assert (Hd : (f | t)%Z).
  { unfold t. apply Z.mod_divide; [lia|]. rewrite Z.add_mod_idemp_r by lia.
    replace (t0 + - t0)%Z with 0%Z by lia. apply Z.mod_0_l. lia. }
  exists t. split.
  - split; [unfold t; lia|]. apply Hrec; [unfold t; lia|exact Hd].
  - intros t' (Ht' & He). apply Hrec in He; auto.
    destruct Hd as (a & Ha), He as (b & Hb').
    assert (Hr : (t0 <= t < t0 + f)%Z) by (unfold t; lia). clearbody t. subst t t'.
    assert (a - b < 1)%Z by (apply (Zmult_lt_reg_r _ _ f); lia).
    assert (b - a < 1)%Z by (apply (Zmult_lt_reg_r _ _ f); lia).
    replace a with b by lia. reflexivity.
Qed.

(** Registering a null factor makes every tick a division by zero. *)
Theorem periodic_null_factor : forall h n s t,
  latest h n = Some (s, 0%Z) -> runSignals (pc_run h) t = UB.
Proof.
  intros h n s t H. apply pc_latest in H. revert H. generalize (pc_run h) as p.
  induction p as [|[n' c] p IH]; intros H; simpl in *; [contradiction|].
  destruct H as [[= -> ->]|H]; [reflexivity|].
  destruct (factor c =? 0)%Z; auto. rewrite IH by exact H. reflexivity.
Qed.

(** Finding: at negative times the conversion to unsigned breaks the period. *)
Theorem periodic_negative_times_refuted :
  exists h n s f t, latest h n = Some (s, f) /\ (f | t)%Z /\ (t < 0)%Z /\
    runSignals (pc_run h) t = Ok [].
Proof.
  exists [PAddDown "a" 5 3], "a"%string, 5, 3%Z, (-3)%Z. repeat split; try lia.
  exists (-1)%Z. reflexivity.
Qed.

Example periodic_example :
  let h := [PAddDown "b" 1 2; PAdd "a" 2; PAdd "c" 3; PRm "c"; PTrigger 4; PAddDown "a" 4 3] in
  latest h "a" = Some (4, 3%Z) /\ latest h "b" = Some (1, 2%Z) /\ latest h "c" = None /\
  map (runSignals (pc_run h)) [0; 2; 3; 6; 7]%Z =
    [Ok [("a", 4); ("b", 1)]; Ok [("b", 1)]; Ok [("a", 4)]; Ok [("a", 4); ("b", 1)]; Ok []]%string.
Proof. vm_compute. repeat split; reflexivity. Qed.

(* ------------------------------------------------------------------ *)
(** * Latch (C38) *)

(** The last request in a history, off when there is none. *)
Definition request (c : lcall) : option bool :=
  match c with
  | LTurnOn | LEvalOn => Some true
  | LTurnOff | LEvalOff => Some false
  | LEvalOut => None
  end.
Definition last_request (h : list lcall) : bool :=
  match find (fun c => match request c with Some _ => true | None => false end) (rev h) with
  | Some c => match request c with Some b => b | None => false end
  | None => false
  end.

Lemma latch_run_snoc h c s :
  latch_run s (h ++ [c]) =
  (fst (latch_run s h) ++ [fst (latch_step (snd (latch_run s h)) c)], snd (latch_step (snd (latch_run s h)) c)).
Proof.
  revert s; induction h as [|d h IH]; intros s; cbn [app latch_run].
  - cbn. destruct (latch_step s c); reflexivity.
  - destruct (latch_step s d) as [o s1]. rewrite IH. destruct (latch_run s1 h) as [os s2]. reflexivity.
Qed.

Theorem latch_holds_last_request : forall h,
  snd (latch_run latch_new h) = last_request h /\
  fst (latch_run latch_new (h ++ [LEvalOut])) =
    fst (latch_run latch_new h) ++ [Some (last_request h)].
Proof.
  intros h. assert (E : snd (latch_run latch_new h) = last_request h).
  { induction h as [|c h IH] using rev_ind; [reflexivity|].
    rewrite latch_run_snoc. cbn [snd]. unfold last_request in *. rewrite rev_app_distr. simpl.
    destruct c; simpl; auto. }
  split; auto. rewrite latch_run_snoc. simpl. rewrite E. reflexivity.
Qed.

Example latch_example :
  fst (latch_run latch_new [LEvalOut; LTurnOn; LEvalOut; LEvalOut; LEvalOff; LEvalOut]) =
  [Some false; None; Some true; Some true; Some false; Some false].
Proof. reflexivity. Qed.

(* ------------------------------------------------------------------ *)
(** * Event (C39) *)

(** Specification.  [v] is the sequence of conditions.  [streak v k] counts the
    consecutive true conditions just before tick [k]. *)
Fixpoint streak (v : nat -> bool) (k : nat) : nat :=
  match k with
  | O => O
  | S j => if v j then S (streak v j) else O
  end.
(** The condition before tick [k]; the code starts as if it had been true. *)
Definition before (v : nat -> bool) (k : nat) : bool :=
  match k with O => true | S j => v j end.
(** Firing: on a rising edge, and every [r] ticks from it while the condition
    holds.  A condition true from the very first tick counts as having risen one
    tick earlier, without firing. *)
Definition fires (r : Z) (v : nat -> bool) (k : nat) : bool :=
  let m := streak v k in
  v k &&
  if m =? k then (0 <? r)%Z && (Z.of_nat (S m) mod r =? 0)%Z
  else (m =? 0) || ((0 <? r)%Z && (Z.of_nat m mod r =? 0)%Z).

Lemma streak_le v k : streak v k <= k.
Proof. induction k; simpl; auto. destruct (v k); lia. Qed.

Definition phase (v : nat -> bool) (k : nat) : Z :=
  Z.of_nat (if streak v k =? k then streak v k else streak v k - 1).

Definition einv (r : Z) (tr : list nat) (v : nat -> bool) (k : nat) (e : Event) : Prop :=
  triggers e = tr /\ repeatAfter e = r /\ lastVal e = before v k /\
  (0 <= timeSinceUp e <= Z.of_nat k)%Z /\
  ((0 < r)%Z -> (timeSinceUp e < r)%Z) /\
  (before v k = true -> (0 < r)%Z -> timeSinceUp e = (phase v k mod r)%Z).

Lemma mod_succ_lt (a r : Z) : (0 < r -> a mod r + 1 < r -> (a + 1) mod r = a mod r + 1)%Z.
Proof.
  intros Hr H. assert (B := Z.mod_pos_bound a r Hr).
  rewrite <- Z.add_mod_idemp_l by lia. apply Z.mod_small. lia.
Qed.
Lemma mod_succ_wrap (a r : Z) : (0 < r -> r <= a mod r + 1 -> (a + 1) mod r = 0)%Z.
Proof.
  intros Hr H. assert (B := Z.mod_pos_bound a r Hr).
  rewrite <- Z.add_mod_idemp_l by lia. replace (a mod r + 1)%Z with r by lia. apply Z.mod_same. lia.
Qed.

Lemma event_check_step r tr v k e :
  einv r tr v k e -> (Z.of_nat k < int_max)%Z ->
  exists e', event_check e (v k) =
    Ok (xorb (v k) (before v k), if fires r v k then tr else [], e') /\ einv r tr v (S k) e'.
Proof.
  intros (Htr & Hre & Hl & Hb & Hlt & Hph) Hk. unfold event_check.
  rewrite Hl, Hre, Htr.
  assert (Eov : (timeSinceUp e =? int_max)%Z = false) by (apply Z.eqb_neq; lia).
  rewrite Eov, andb_false_r.
  assert (Hlast : (if xorb (v k) (before v k) then v k else before v k) = v k).
  { destruct (v k), (before v k); reflexivity. }
  rewrite Hlast.
  assert (Hsl := streak_le v k).
  destruct (v k) eqn:Ev.
  - (* condition true *)
    destruct (before v k) eqn:Eb; simpl negb; simpl andb.
    + (* was true *)
      assert (Hs0 : k <> 0 -> streak v k <> 0).
      { destruct k; [congruence|]. simpl in *. rewrite Eb. lia. }
      assert (HS : streak v (S k) = S (streak v k)) by (simpl; rewrite Ev; reflexivity).
      assert (Hph' : phase v (S k) = (phase v k + 1)%Z).
      { unfold phase. rewrite HS. simpl (S _ =? S _).
        destruct (Nat.eqb_spec (streak v k) k); [lia|]. assert (streak v k <> 0) by (apply Hs0; lia). lia. }
      simpl orb. destruct (Z.ltb_spec 0 r) as [Hr|Hr]; simpl.
      * specialize (Hph eq_refl Hr). specialize (Hlt Hr).
        assert (Efire : fires r v k = (r <=? timeSinceUp e + 1)%Z).
        { unfold fires. rewrite Ev. cbn [andb]. rewrite (proj2 (Z.ltb_lt 0 r) Hr). cbn [andb].
          assert (E1 : ((phase v k + 1) mod r =? 0)%Z = (r <=? timeSinceUp e + 1)%Z).
          { rewrite Hph. destruct (Z.leb_spec r (phase v k mod r + 1)).
            - rewrite mod_succ_wrap by assumption. reflexivity.
            - rewrite mod_succ_lt by assumption. apply Z.eqb_neq.
              assert (B := Z.mod_pos_bound (phase v k) r Hr). lia. }
          rewrite <- E1. unfold phase. destruct (Nat.eqb_spec (streak v k) k).
          - f_equal. f_equal. lia.
          - assert (streak v k <> 0) by (apply Hs0; lia).
            destruct (Nat.eqb_spec (streak v k) 0); [contradiction|]. cbn [orb]. f_equal. f_equal. lia. }
        rewrite Efire. destruct (Z.leb_spec r (timeSinceUp e + 1)).
        -- eexists. split; [reflexivity|]. unfold einv; simpl. rewrite Ev. repeat split; auto; try lia.
           intros _ _. rewrite Hph'. symmetry. apply mod_succ_wrap; auto. lia.
        -- eexists. split; [reflexivity|]. unfold einv; simpl. rewrite Ev. repeat split; auto; try lia.
           intros _ _. rewrite Hph'. rewrite mod_succ_lt; auto; lia.
      * assert (Ef : fires r v k = false).
        { unfold fires. rewrite Ev. cbn [andb]. rewrite (proj2 (Z.ltb_ge 0 r) Hr). cbn [andb].
          destruct (Nat.eqb_spec (streak v k) k); auto. destruct (Nat.eqb_spec (streak v k) 0); auto.
          exfalso. apply Hs0; auto. lia. }
        rewrite Ef. eexists. split; [reflexivity|]. unfold einv; simpl. rewrite Ev. repeat split; auto; try lia.
    + (* rising edge *)
      simpl orb. destruct k as [|j]; [discriminate|]. simpl in Eb.
      assert (Ef : fires r v (S j) = true).
      { unfold fires. rewrite Ev. cbn [streak]. rewrite Eb. reflexivity. }
      rewrite Ef. simpl.
      eexists. split; [reflexivity|]. unfold einv. simpl. rewrite Ev. repeat split; auto; try lia.
      intros _ Hr. unfold phase. simpl. rewrite Ev, Eb. simpl. rewrite Z.mod_0_l; lia.
  - (* condition false *)
    simpl.
    assert (Ef : ((0 <? r)%Z && (r <=? timeSinceUp e)%Z) = false).
    { destruct (Z.ltb_spec 0 r); simpl; auto. apply Z.leb_gt. auto. }
    assert (Ef' : fires r v k = false) by (unfold fires; rewrite Ev; reflexivity).
    rewrite Ef', andb_false_r. simpl. rewrite Ef. eexists. split; [reflexivity|]. unfold einv; simpl. rewrite Ev.
    repeat split; auto; try lia; discriminate.
Qed.

Lemma event_run_checks r tr v n : forall k e,
  einv r tr v k e -> (Z.of_nat (k + n) <= int_max)%Z ->
  exists e', event_run e (map (fun i => EvCheck (v i)) (seq k n)) =
    Ok (map (fun i => (xorb (v i) (before v i), if fires r v i then tr else [])) (seq k n), e').
Proof.
  induction n as [|n IH]; intros k e Hi Hb; cbn [seq map event_run].
  - exists e. reflexivity.
  - destruct (event_check_step r tr v k e Hi) as (e1 & E1 & Hi1); [lia|].
    destruct (IH (S k) e1 Hi1) as (e2 & E2); [lia|].
    exists e2. rewrite E1. cbn [bind]. rewrite E2. reflexivity.
Qed.

(** For every period (0 or less: no repetition), every list of signals and every
    sequence of conditions (shorter than the int counter), the outputs tell the
    changes and the signals are recomputed exactly at the firing ticks. *)
Theorem event_fires : forall r tr v n,
  (Z.of_nat n <= int_max)%Z ->
  exists e', event_run event_new
      (map EvAdd tr ++ EvRepeat r :: map (fun i => EvCheck (v i)) (seq 0 n)) =
    Ok (map (fun k => (xorb (v k) (before v k), if fires r v k then tr else [])) (seq 0 n), e').
Proof.
  intros r tr v n Hn.
  assert (Hadd : forall tr0 r0 rest, event_run (mkEvent tr0 true 0 r0) (map EvAdd tr ++ rest) =
                               event_run (mkEvent (tr0 ++ tr) true 0 r0) rest).
  { induction tr as [|x tr' IH]; intros tr0 r0 rest; simpl.
    - rewrite app_nil_r. reflexivity.
    - unfold event_add. simpl. rewrite IH, <- app_assoc. reflexivity. }
  unfold event_new. rewrite Hadd. cbn [app event_run]. unfold event_repeat. cbn.
  apply event_run_checks; auto.
  unfold einv. simpl. repeat split; auto; try lia.
Qed.

(** Reading of the specification: without repetition the signals are recomputed
    at rising edges only ... *)
Theorem event_without_repeat : forall r v k, (r <= 0)%Z ->
  fires r v k = (v k && negb (before v k)).
Proof.
  intros r v k Hr. unfold fires.
  assert (E : (0 <? r)%Z = false) by (apply Z.ltb_ge; exact Hr). rewrite E. simpl.
  destruct (v k); auto. simpl. destruct k as [|j]; auto. simpl. destruct (v j); simpl.
  - destruct (streak v j =? j); reflexivity.
  - reflexivity.
Qed.
(** ... and with a period they are recomputed [r] ticks after a firing if the
    condition held all along, not in between. *)
Theorem event_period : forall r v k d, (0 < r)%Z -> fires r v k = true ->
  (forall i, k <= i <= k + d -> v i = true) -> (0 < Z.of_nat d <= r)%Z ->
  fires r v (k + d) = (Z.of_nat d =? r)%Z.
Proof.
  intros r v k d Hr Hf Hv [Hd Hdr].
  assert (Hst : forall i, i <= d -> streak v (k + i) = streak v k + i).
  { induction i as [|i IH]; intros H; [rewrite !Nat.add_0_r; reflexivity|].
    rewrite Nat.add_succ_r. simpl. rewrite (Hv (k + i)) by lia. rewrite IH by lia. lia. }
  unfold fires in *. rewrite (Hv (k + d)) by lia. rewrite (Hv k) in Hf by lia.
  rewrite Hst by lia. apply Z.ltb_lt in Hr. rewrite Hr in *. apply Z.ltb_lt in Hr. cbn [andb] in *.
  assert (Key : forall m : Z, (m mod r = 0)%Z -> ((m + Z.of_nat d) mod r =? 0)%Z = (Z.of_nat d =? r)%Z).
  { intros m Hm. rewrite <- Z.add_mod_idemp_l by lia. rewrite Hm, Z.add_0_l.
    destruct (Z.eqb_spec (Z.of_nat d) r) as [->|Hne].
    - rewrite Z.mod_same by lia. reflexivity.
    - rewrite Z.mod_small by lia. apply Z.eqb_neq. lia. }
  destruct (Nat.eqb_spec (streak v k) k) as [E|E].
  - replace (streak v k + d =? k + d) with true by (symmetry; apply Nat.eqb_eq; lia).
    replace (Z.of_nat (S (streak v k + d))) with (Z.of_nat (S (streak v k)) + Z.of_nat d)%Z by lia.
    apply Key. apply Z.eqb_eq. exact Hf.
  - replace (streak v k + d =? k + d) with false by (symmetry; apply Nat.eqb_neq; lia).
    replace (streak v k + d =? 0) with false by (symmetry; apply Nat.eqb_neq; lia). cbn [orb].
    rewrite Nat2Z.inj_add. apply Key.
    apply orb_true_iff in Hf. destruct Hf as [Hf|Hf]; [apply Nat.eqb_eq in Hf; rewrite Hf; reflexivity|apply Z.eqb_eq; exact Hf].
Qed.

(** Finding: the first evaluation should differ from any previous value (comment
    of event.hh:49) but a condition true from the start is not reported. *)
Theorem event_initial_true_refuted : forall tr n,
  (Z.of_nat n <= int_max)%Z ->
  exists e', event_run event_new (map EvAdd tr ++ EvRepeat 0 :: map (fun _ => EvCheck true) (seq 0 n)) =
    Ok (map (fun _ => (false, [])) (seq 0 n), e').
Proof.
  intros tr n Hn. destruct (event_fires 0 tr (fun _ => true) n Hn) as (e' & E).
  exists e'. rewrite E. f_equal. f_equal. apply map_ext. intros k. rewrite event_without_repeat by lia.
  destruct k; reflexivity.
Qed.

(** Finding: shortening the period while the condition is false fires at a tick
    where the condition is false. *)
Theorem event_fires_while_false_refuted :
  exists cs outs e, event_run event_new (cs ++ [EvCheck false]) = Ok (outs ++ [(false, [7])], e) /\
    length outs = 5.
Proof.
  exists [EvAdd 7; EvRepeat 5; EvCheck false; EvCheck true; EvCheck true; EvCheck true; EvCheck false; EvRepeat 2].
  eexists [_; _; _; _; _], _. split; vm_compute; reflexivity.
Qed.

Example event_example :
  let v k := match k with 0 => false | 4 => false | _ => true end in
  map (fires 2 v) [0; 1; 2; 3; 4; 5; 6; 7; 8; 9] =
    [false; true; false; true; false; true; false; true; false; true] /\
  match event_run event_new (EvAdd 7 :: EvRepeat 2 :: map (fun i => EvCheck (v i)) (seq 0 6)) with
  | Ok (o, _) => o = [(true, []); (true, [7]); (false, []); (false, [7]); (true, []); (true, [7])]
  | _ => False
  end.
Proof. vm_compute. split; reflexivity. Qed.

Print Assumptions periodic_tick.
Print Assumptions periodic_window.
Print Assumptions periodic_null_factor.
Print Assumptions periodic_negative_times_refuted.
Print Assumptions latch_holds_last_request.
Print Assumptions event_fires.
Print Assumptions event_without_repeat.
Print Assumptions event_period.
Print Assumptions event_initial_true_refuted.
Print Assumptions event_fires_while_false_refuted.
Print Assumptions sequencer_null_refuted.

(** Ticks where the condition stays true, from a counter of [c]: nothing while the counter stays under the period. *)
Lemma quiet tr r n : forall c, (0 <= c)%Z -> (c + Z.of_nat n <= int_max)%Z -> ((r <= 0)%Z \/ (c + Z.of_nat n < r)%Z) ->
  event_run (mkEvent tr true c r) (repeat (EvCheck true) n) = Ok (repeat (false, []) n, mkEvent tr true (c + Z.of_nat n) r).
Proof.
  induction n as [|n IH]; intros c Hc Hm Hr; cbn [repeat event_run]; [now rewrite Z.add_0_r|].
  unfold event_check. cbn [lastVal timeSinceUp repeatAfter triggers negb andb orb xorb]. destruct (Z.eqb_spec c int_max); [lia|].
  assert (E : ((0 <? r)%Z && (r <=? c + 1)%Z) = false).
  { destruct (Z.ltb_spec 0 r); [|reflexivity]. destruct (Z.leb_spec r (c + 1)); [lia|reflexivity]. }
  rewrite E. cbn [bind]. rewrite IH by lia. cbn [bind]. replace (c + 1 + Z.of_nat n)%Z with (c + Z.of_nat (S n))%Z by lia. reflexivity.
Qed.
Lemma event_run_app a b : forall e, event_run e (a ++ b) = let* (o1, e1) := event_run e a in let* (o2, e2) := event_run e1 b in Ok (o1 ++ o2, e2).
Proof.
  induction a as [|[s|n|v] a IH]; intros e; cbn [event_run app].
  - cbn. destruct (event_run e b) as [[]| |]; reflexivity.
  - apply IH.
  - apply IH.
  - destruct (event_check e v) as [[[x y] z]| |]; cbn [bind]; try reflexivity. rewrite IH. destruct (event_run z a) as [[]| |]; cbn [bind]; try reflexivity.
    destruct (event_run e0 b) as [[]| |]; reflexivity.
Qed.
(** The period may be changed while the condition is true: the ticks already elapsed since the last firing count, so that
    after [d] silent ticks under the old period, the next firing under the new one comes at tick [r'] after the last. *)
Theorem event_period_changed : forall e d r' n, lastVal e = false -> (0 < r')%Z -> (Z.of_nat (d + n + 1) = r')%Z -> (r' <= int_max)%Z ->
  ((repeatAfter e <= 0)%Z \/ (Z.of_nat d < repeatAfter e)%Z) ->
  exists e', event_run e (EvCheck true :: repeat (EvCheck true) d ++ EvRepeat r' :: repeat (EvCheck true) n ++ [EvCheck true]) =
    Ok ((true, triggers e) :: repeat (false, []) d ++ repeat (false, []) n ++ [(false, triggers e)], e').
Proof.
  intros [tr lv ts r] d r' n Hl Hr' Hd Hm Hr. cbn [lastVal repeatAfter triggers] in *. subst lv. cbn [event_run]. unfold event_check at 1. cbn [lastVal negb andb orb xorb bind timeSinceUp repeatAfter triggers].
  rewrite event_run_app, quiet by (cbn; lia). cbn [bind event_run]. unfold event_repeat. cbn [triggers lastVal timeSinceUp].
  rewrite event_run_app, quiet by lia. cbn [bind event_run]. unfold event_check. cbn [lastVal timeSinceUp repeatAfter triggers negb andb orb xorb].
  destruct (Z.eqb_spec (0 + Z.of_nat d + Z.of_nat n) int_max); [lia|].
  assert (E : ((0 <? r')%Z && (r' <=? 0 + Z.of_nat d + Z.of_nat n + 1)%Z) = true) by (apply andb_true_iff; split; [apply Z.ltb_lt|apply Z.leb_le]; lia).
  rewrite E. cbn [bind]. eexists. reflexivity.
Qed.
Example event_period_changed_example : exists e', event_run (mkEvent [7] false 0 5) [EvCheck true; EvCheck true; EvCheck true; EvRepeat 4; EvCheck true; EvCheck true] =
  Ok ([(true, [7]); (false, []); (false, []); (false, []); (false, [7])], e').
Proof. eexists. reflexivity. Qed.
Print Assumptions event_period_changed.
