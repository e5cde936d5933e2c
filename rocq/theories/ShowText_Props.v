(** Properties of the texts printed by features of poses, sequencers and periodic calls (C134). *)
From Coq Require Import String Ascii List Arith Lia ZArith Bool Sorting.Sorted.
From Verif Require Import Base SMap Flags_Model Feature_Model Point6d_Model RefName_Model StackText_Model StackText_Props Sched_Model Sched_Props ShowText_Model.
Import ListNotations.
Local Open Scope string_scope.
Local Open Scope list_scope.
Local Open Scope nat_scope.

(** ** Specification *)
(** Whether a component is selected. *)
Definition selected (fl : Flags) (i : nat) : bool := nth i (flags fl) (outOfRangeFlag fl).
Definition component (i : nat) : string := nth i ["X "; "Y "; "Z "; "RX"; "RY"; "RZ"]%string "".
Definition all_text (l : list string) : string := String.concat "" l.

Lemma sassoc (a b c : string) : ((a ++ b) ++ c = a ++ b ++ c)%string.
Proof. induction a; cbn; congruence. Qed.

(** ** The components of a feature *)
Lemma at_selected fl i : at_ fl (Z.of_nat i) = Ok (selected fl i).
Proof.
  unfold at_, selected, vget. rewrite Nat2Z.id. destruct (Z.ltb_spec (Z.of_nat i) (Z.of_nat (length (flags fl)))) as [H|H].
  - destruct (Z.ltb_spec (Z.of_nat i) 0); [lia|]. destruct (nth_error (flags fl) i) eqn:E; [now rewrite (nth_error_nth _ _ _ E)|]. apply nth_error_None in E. lia.
  - now rewrite nth_overflow by lia.
Qed.
(** The text names exactly the selected components, in order, with commas between. *)
Theorem pose_text_components title name fl :
  pose_text title name (Some fl) =
  Ok (title ++ name ++ ">: (" ++ String.concat "," (map component (filter (selected fl) (seq 0 6))) ++ ") ")%string.
Proof.
  unfold pose_text, featureNames. cbn [comps]. 
  pose proof (at_selected fl 0) as A0. pose proof (at_selected fl 1) as A1. pose proof (at_selected fl 2) as A2.
  pose proof (at_selected fl 3) as A3. pose proof (at_selected fl 4) as A4. pose proof (at_selected fl 5) as A5.
  rewrite A0. cbn [bind seq filter]. 
  destruct (selected fl 0); cbn [bind]; rewrite A1; cbn [bind]; destruct (selected fl 1); cbn [bind]; rewrite A2; cbn [bind]; destruct (selected fl 2); cbn [bind];
  rewrite A3; cbn [bind]; destruct (selected fl 3); cbn [bind]; rewrite A4; cbn [bind]; destruct (selected fl 4); cbn [bind];
  rewrite A5; cbn [bind]; destruct (selected fl 5); cbn [bind]; rewrite ?sassoc; reflexivity.
Qed.
(** As many names as the dimension of the feature. *)
Lemma count_selected fl l : forall n, ofold (count_step fl) l n = Ok (n + length (filter (selected fl) l)).
Proof.
  induction l as [|i l IH]; intros n; [cbn; f_equal; lia|]. cbn [ofold filter]. unfold count_step at 1. rewrite at_selected. cbn [bind].
  destruct (selected fl i); cbn [bind]; rewrite IH; f_equal; cbn [length]; lia.
Qed.
Theorem pose_text_dimension fl : p6_dimension fl = Ok (length (filter (selected fl) (seq 0 6))).
Proof. apply (count_selected fl (seq 0 6) 0). Qed.

(** Two features of the same name print the same exactly when they select the same components. *)
Lemma sapp_inj p (a b : string) : (p ++ a = p ++ b)%string -> a = b.
Proof. induction p; cbn; intros H; [exact H|]. apply IHp. congruence. Qed.
Lemma ok_inj {A} (a b : A) : Ok a = Ok b -> a = b.
Proof. intros H. now injection H. Qed.
Definition masked (l : list bool) : string := (String.concat "," (map component (filter (fun i => nth i l false) (seq 0 6))) ++ ") ")%string.
Fixpoint masks (n : nat) : list (list bool) := match n with 0 => [[]] | S n => map (cons true) (masks n) ++ map (cons false) (masks n) end.
Lemma masks_in l : In l (masks (length l)).
Proof. induction l as [|b l IH]; cbn; [auto|]. apply in_or_app. destruct b; [left|right]; now apply in_map. Qed.
Definition lbeq (a b : list bool) : bool := if list_eq_dec bool_dec a b then true else false.
Lemma masks_distinct : forallb (fun a => negb (masked a =? " selectSIN not set.")%string && forallb (fun b => implb (masked a =? masked b)%string (lbeq a b)) (masks 6)) (masks 6) = true.
Proof. vm_compute. reflexivity. Qed.
Definition mask_of (fl : Flags) : list bool := map (selected fl) (seq 0 6).
Lemma masked_of fl : masked (mask_of fl) = (String.concat "," (map component (filter (selected fl) (seq 0 6))) ++ ") ")%string.
Proof. unfold masked. repeat f_equal. Qed.
Theorem pose_text_selection title name f1 f2 :
  (pose_text title name (Some f1) = pose_text title name (Some f2) <-> forall i, i < 6 -> selected f1 i = selected f2 i) /\
  pose_text title name (Some f1) <> pose_text title name None.
Proof.
  pose proof masks_distinct as D. rewrite forallb_forall in D. pose proof (D (mask_of f1) (masks_in (mask_of f1))) as D1. apply andb_true_iff in D1 as (D1 & D2).
  rewrite forallb_forall in D2. specialize (D2 (mask_of f2) (masks_in (mask_of f2))). rewrite pose_text_components. split; [rewrite pose_text_components; split|].
  - intros E. apply ok_inj in E. apply sapp_inj, sapp_inj, (sapp_inj ">: (") in E. rewrite <- !masked_of in E. rewrite E, String.eqb_refl in D2. cbn [implb] in D2. unfold lbeq in D2.
    destruct (list_eq_dec bool_dec (mask_of f1) (mask_of f2)) as [M|]; [|discriminate D2]. unfold mask_of in M. cbn in M. injection M as M0 M1 M2 M3 M4 M5. intros i Hi. do 6 (destruct i as [|i]; [assumption|]). lia.
  - intros E. replace (filter (selected f2) (seq 0 6)) with (filter (selected f1) (seq 0 6)); [reflexivity|]. apply filter_ext_in. intros i Hi. apply in_seq in Hi. apply E. lia.
  - intros E. unfold pose_text in E. apply ok_inj in E. rewrite sassoc in E. apply sapp_inj in E. rewrite sassoc in E. apply sapp_inj, (sapp_inj ">: (") in E. rewrite <- masked_of in E. rewrite E in D1. discriminate D1.
Qed.
Example pose_text_example : pose_text "Point6d <" "wrist" (Some (mkFlags [true; false; true; false; true] false)) = Ok "Point6d <wrist>: (X ,Z ,RY) "%string /\
  pose_text "Point6d <" "wrist" (Some (of_bool true)) = Ok "Point6d <wrist>: (X ,Y ,Z ,RX,RY,RZ) "%string.
Proof. split; reflexivity. Qed.

(** ** Periodic calls *)
(** The text of a periodic call after any history: the names registered and not removed since, each once, in increasing order.  The
    time shown is 0 whatever the triggers. *)
Lemma emit_concat {A} (f : A -> string) l : forall os, emit f l os = (os ++ all_text (map f l))%string.
Proof.
  unfold emit, all_text. induction l as [|a l IH]; intros os; cbn [fold_left map].
  - cbn. induction os; cbn; congruence.
  - rewrite IH, sassoc. f_equal. destruct l; cbn; [|reflexivity]. induction (f a); cbn; congruence.
Qed.
Theorem periodic_text dec self h : exists ns,
  StronglySorted (fun a b => String.compare a b = Lt) ns /\ (forall n, In n ns <-> latest h n <> None) /\
  pc_text dec self (pc_run h) =
  ("PeriodicCallEntity <" ++ self ++ ">   (t=" ++ dec 0%Z ++ ")" ++ endl ++ " -> SIGNALS:" ++ endl ++ all_text (map (fun n => " - " ++ n ++ endl) ns))%string.
Proof.
  destruct (pc_latest h) as (S & L). exists (map fst (pc_run h)). split; [|split].
  - clear L. unfold msorted in S. induction S as [|x l S IH F]; cbn; constructor; [apply IH|]. apply Forall_map. exact F.
  - intros n. rewrite in_map_iff. split.
    + intros ((n' & [s f]) & <- & H). cbn. apply L in H. congruence.
    + intros H. destruct (latest h n) as [[s f]|] eqn:E; [|congruence]. apply L in E. exists (n, mkStc s f). auto.
  - unfold pc_text. rewrite emit_concat, map_map, !sassoc. reflexivity.
Qed.

(** ** Sequencers *)
(** What an event says. *)
Definition says (tname : nat -> string) (cmd_of : ev -> string) (e : ev) : string :=
  match ekd e with
  | KAdd (Some t) => "Add<" ++ tname t ++ ">"
  | KAdd None => "Add<NULL>"
  | KRm (Some t) => "Remove<" ++ tname t ++ ">"
  | KRm None => "Remove<NULL>"
  | KCmd _ => "Run: " ++ cmd_of e
  end%string.
Definition null_registered (h : list scall) (tname : nat -> string) : Prop := exists t, In (t, None) (registered tname h).

Section Seq.
Variable dec : Z -> string.
Variable tname : nat -> string.
Variable cmd_of : ev -> string.
Definition played (s : Sequencer) : Sequencer := mkSeq (sotPtr s) (taskMap s) (timeInit s) true.
Definition winv (s : Sequencer) (l : list (Z * option ev)) : Prop :=
  msorted Z.compare (taskMap s) /\ (forall k, slot (taskMap s) k = at_time k l) /\ playMode s = false /\ timeInit s = (-1)%Z /\
  Forall (fun p => snd p <> []) (taskMap s).
Lemma winv_step s l c s' : winv s l -> seq_step tname s c = Some s' -> winv s' (reg_step tname l c).
Proof.
  intros (Hs & Ha & Hp & Ht & Hn) Hc.
  assert (I : inv (played s) l None) by (repeat split; auto; discriminate).
  assert (N : forall m k v, Forall (fun p : Z * list (option ev) => snd p <> []) m -> v <> [] -> Forall (fun p => snd p <> []) (mset Z.compare m k v)).
  { intros m k v F V. apply Forall_forall. intros x Hx. apply mset_in in Hx as [->|Hx]; [exact V|]. rewrite Forall_forall in F. auto. }
  assert (G : forall z, seq_step tname (played s) c = Some z -> taskMap z = taskMap s' -> msorted Z.compare (taskMap s') /\ (forall k, slot (taskMap s') k = at_time k (reg_step tname l c))).
  { intros z Hz E. destruct (inv_step _ _ _ _ _ _ I Hz) as (A & B & _). rewrite E in A, B. auto. }
  destruct c as [e t|ty nm t| |r|t]; cbn [seq_step] in Hc, G.
  - injection Hc as <-. destruct (G _ eq_refl eq_refl) as (A & B). repeat split; auto. unfold addTask. cbn [taskMap]. destruct (mfind Z.compare (taskMap s) t) as [tl|]; apply N; auto; [|discriminate]. destruct tl; discriminate.
  - destruct (rmTask tname s ty nm t) as [z| |] eqn:R; try discriminate. injection Hc as ->. unfold rmTask in R, G. unfold played in G. cbn [taskMap sotPtr timeInit playMode] in G.
    destruct (mfind Z.compare (taskMap s) t) as [tl|].
    + destruct (find_event tname ty nm tl) as [f| |]; cbn [bind] in R, G; try discriminate. injection R as <-. destruct (G _ eq_refl eq_refl) as (A & B). repeat split; auto. cbn [taskMap].
      destruct (match f with Some e => list_remove (eptr e) tl | None => tl end) eqn:Q; [|apply N; auto; discriminate]. apply Forall_forall. intros x Hx. apply merase_in in Hx. rewrite Forall_forall in Hn. auto.
    + injection R as <-. destruct (G _ eq_refl eq_refl) as (A & B). repeat split; auto.
  - unfold clearAll in Hc, G. unfold played in G. cbn [taskMap sotPtr timeInit playMode] in G. destruct (nodupb (ptrs (concat (map snd (taskMap s))))); [|discriminate]. injection Hc as <-.
    destruct (G _ eq_refl eq_refl) as (A & B). repeat split; auto. constructor.
  - injection Hc as <-. destruct (G _ eq_refl eq_refl) as (A & B). repeat split; auto.
  - unfold seq_trigger in Hc. rewrite Hp in Hc. cbn in Hc. injection Hc as <-. repeat split; auto.
Qed.
Lemma winv_run h : forall s l s', winv s l -> seq_run tname s h = Some s' -> winv s' (fold_left (reg_step tname) h l).
Proof.
  induction h as [|c h IH]; intros s l s' W H; cbn in *; [injection H as <-; exact W|]. destruct (seq_step tname s c) as [z|] eqn:E; [|discriminate].
  apply (IH z); [|exact H]. eapply winv_step; eauto.
Qed.
Lemma ev_text_out e os : ev_text tname cmd_of e os = (os ++ says tname cmd_of e)%string.
Proof. unfold ev_text, says, task_text. destruct (ekd e) as [[t|]|[t|]|n]; reflexivity. Qed.
Definition words (l : list ev) : string := all_text (map (fun e => says tname cmd_of e ++ " ")%string l).
Lemma all_text_cons a l : all_text (a :: l) = (a ++ all_text l)%string.
Proof. unfold all_text. destruct l; cbn; [|reflexivity]. induction a; cbn; congruence. Qed.
Lemma snil (a : string) : (a ++ "" = a)%string.
Proof. induction a; cbn; congruence. Qed.
Lemma evs_text_out tl : forall os, evs_text tname cmd_of tl os = if existsb (fun x => match x with None => true | _ => false end) tl then UB else Ok (os ++ words (nonnull tl))%string.
Proof.
  induction tl as [|[e|] tl IH]; intros os; cbn [evs_text existsb orb].
  - unfold words, all_text. cbn. now rewrite snil.
  - rewrite IH. destruct (existsb _ tl); [reflexivity|]. unfold words. cbn [nonnull flat_map app map]. change (flat_map _ tl) with (nonnull tl). rewrite all_text_cons, ev_text_out, !sassoc. reflexivity.
  - reflexivity.
Qed.
Definition time_line (l : list (Z * option ev)) (t : Z) : string := (" - t=" ++ dec t ++ ":" ++ tb ++ words (due t l) ++ endl)%string.
Lemma times_text_out l m : forall os, (forall k tl, In (k, tl) m -> tl = at_time k l) ->
  (forall k tl, In (k, tl) m -> ~ In None tl) ->
  times_text dec tname cmd_of m os = Ok (os ++ all_text (map (time_line l) (map fst m)))%string.
Proof.
  induction m as [|[t tl] m IH]; intros os A N; cbn [times_text map fst].
  - unfold all_text. cbn. now rewrite snil.
  - rewrite evs_text_out. assert (X : existsb (fun x : option ev => match x with None => true | _ => false end) tl = false).
    { apply not_true_is_false. intros X. apply existsb_exists in X as ([e|] & Hx & Ex); [discriminate|]. apply (N t tl); cbn; auto. }
    rewrite X. cbn [bind]. rewrite IH; [|intros k v H; apply A; right; exact H|intros k v H; apply (N k v); right; exact H]. rewrite all_text_cons. unfold time_line at 2.
    rewrite due_at_time, <- (A t tl (or_introl eq_refl)), !sassoc. reflexivity.
Qed.
Lemma times_text_ub m : forall os k tl, In (k, tl) m -> In None tl -> times_text dec tname cmd_of m os = UB.
Proof.
  induction m as [|[t tl'] m IH]; intros os k tl Hk Hn; [destruct Hk|]. cbn [times_text]. rewrite evs_text_out.
  destruct (existsb _ tl') eqn:X; [reflexivity|]. cbn [bind]. destruct Hk as [[= -> ->]|Hk]; [|eapply IH; eassumption].
  exfalso. assert (existsb (fun x : option ev => match x with None => true | _ => false end) tl = true) by (apply existsb_exists; exists None; auto). congruence.
Qed.

(** The text of a sequencer after any history of calls: one line for each time at which an event is registered, in increasing order, with
    the events of this time in the order of their registration.  Printing is undefined exactly when a null pointer is registered. *)
Theorem sequencer_text self h s : seq_run tname seq_new h = Some s ->
  (null_registered h tname -> seq_text dec tname cmd_of self s = UB) /\
  (~ null_registered h tname -> exists ts,
     StronglySorted Z.lt ts /\ (forall t, In t ts <-> exists e, In (t, e) (registered tname h)) /\
     seq_text dec tname cmd_of self s =
     Ok ("Sequencer " ++ self ++ "(t0=" ++ dec (-1)%Z ++ ",mode=pause): " ++ endl ++
         all_text (map (fun t => " - t=" ++ dec t ++ ":" ++ tb ++ all_text (map (fun e => says tname cmd_of e ++ " ") (due t (registered tname h))) ++ endl) ts))%string).
Proof.
  intros R. assert (W : winv s (registered tname h)).
  { apply (winv_run h seq_new []); [|exact R]. repeat split; constructor. }
  destruct W as (Hs & Ha & Hp & Ht & Hn). set (l := registered tname h) in *.
  assert (E : forall k tl, In (k, tl) (taskMap s) <-> tl = at_time k l /\ tl <> []).
  { intros k tl. rewrite <- (mfind_in _ _ _ zcmp_eq zcmp_antisym (taskMap s) k tl Hs). specialize (Ha k). unfold slot in Ha. split.
    - intros H. rewrite H in Ha. split; [exact Ha|]. apply (mfind_in _ _ _ zcmp_eq zcmp_antisym) in H; [|exact Hs]. rewrite Forall_forall in Hn. apply (Hn _ H).
    - intros (-> & H). destruct (mfind Z.compare (taskMap s) k); congruence. }
  assert (B : forall t e, In e (at_time t l) <-> In (t, e) l).
  { intros t e. unfold at_time. rewrite in_map_iff. split.
    - intros ((t' & e') & <- & H). apply filter_In in H as (H & Q). cbn in Q. apply Z.eqb_eq in Q. subst. exact H.
    - intros H. exists (t, e). split; [reflexivity|]. apply filter_In. split; [exact H|]. apply Z.eqb_refl. }
  unfold seq_text. split.
  - intros (t & H). apply (times_text_ub (taskMap s) _ t (at_time t l)); [apply E; split; [reflexivity|]|now apply B]. intros Q. apply B in H. rewrite Q in H. destruct H.
  - intros N. exists (map fst (taskMap s)). split; [|split].
    + clear - Hs. unfold msorted in Hs. induction Hs as [|x m S IH F]; cbn; constructor; [apply IH|]. apply Forall_map. eapply Forall_impl; [|exact F]. intros y. exact (fun H => H).
    + intros t. rewrite in_map_iff. split.
      * intros ((t' & tl) & <- & H). apply E in H as (-> & H). cbn. destruct (at_time t' l) as [|e r] eqn:Q; [congruence|]. exists e. apply B. rewrite Q. left. reflexivity.
      * intros (e & H). exists (t, at_time t l). split; [reflexivity|]. apply E. split; [reflexivity|]. intros Q. apply B in H. rewrite Q in H. destruct H.
    + rewrite (times_text_out l).
      * rewrite Ht, Hp, !sassoc. reflexivity.
      * intros k tl H. now apply E in H.
      * intros k tl H Q. apply N. exists k. apply B. apply E in H as (<- & _). exact Q.
Qed.
End Seq.

(** Two events at one time, one at an earlier time, one removed. *)
Example sequencer_text_example : let e1 := mkEv 1 (KAdd (Some 4)) in let e2 := mkEv 2 (KRm None) in let e3 := mkEv 3 (KCmd "c<cmd>") in let e4 := mkEv 4 (KAdd (Some 5)) in
  let tname := fun t => if t =? 4 then "grasp" else "gaze" in let dec := fun z => if (z =? 7)%Z then "7" else if (z =? 3)%Z then "3" else "-1" in
  exists s, seq_run tname seq_new [SAdd (Some e1) 7; SAdd (Some e4) 7; SAdd (Some e2) 3; SAdd (Some e3) 7; SRm 0 "gaze" 7; STrigger 2]%Z = Some s /\
  seq_text dec tname (fun _ => "c") "s" s = Ok ("Sequencer s(t0=-1,mode=pause): " ++ endl ++ " - t=3:" ++ tb ++ "Remove<NULL> " ++ endl ++ " - t=7:" ++ tb ++ "Add<grasp> Run: c " ++ endl)%string.
Proof. eexists. split; vm_compute; reflexivity. Qed.

Print Assumptions pose_text_components.
Print Assumptions pose_text_dimension.
Print Assumptions pose_text_selection.
Print Assumptions periodic_text.
Print Assumptions sequencer_text.
