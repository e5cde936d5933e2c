(** Properties of the commands of an event (C138). *)
From Coq Require Import String Ascii List Arith ZArith Bool Lia.
From Verif Require Import Base Sched_Model StackText_Model EventText_Model.
Import ListNotations.
Local Open Scope string_scope.
Local Open Scope list_scope.

(** ** Specification: the signals added by a history, in order. *)
Definition added (p : signals) (h : list evcmd) : list nat :=
  flat_map (fun c => match c with EAddSignal n => match p n with Some s => [s] | None => [] end | _ => [] end) h.
Definition no_apostrophe (n : string) : Prop := ~ In "'"%char (list_ascii_of_string n).

Lemma ev_triggers p h : forall e e', ofold (ev_exec p) h e = Ok e' -> triggers e' = triggers e ++ added p h.
Proof.
  induction h as [|c h IH]; intros e e' E; [injection E as <-; symmetry; apply app_nil_r|]. cbn [ofold] in E.
  destruct (ev_exec p e c) as [e1|w|] eqn:S; cbn in E; try discriminate E. rewrite (IH _ _ E). cbn [added flat_map]. fold (added p h). rewrite app_assoc. f_equal.
  destruct c as [n|k|v]; cbn in S.
  - unfold addSignal in S. injection S as <-. destruct (p n); cbn; [reflexivity|symmetry; apply app_nil_r].
  - injection S as <-. cbn. symmetry. apply app_nil_r.
  - rewrite app_nil_r. unfold event_check in S. destruct (_ && _ && _)%bool; cbn in S; [discriminate S|]. destruct (_ || _)%bool; cbn in S; injection S as <-; reflexivity.
Qed.
Lemma sassoc (a b c : string) : ((a ++ b) ++ c = a ++ b ++ c)%string.
Proof. induction a; cbn; congruence. Qed.
Lemma emit_text (name : nat -> string) (l : list nat) : forall os, (emit (fun s => "'" ++ name s ++ "', ") l os = os ++ String.concat "" (map (fun s => "'" ++ name s ++ "', ") l))%string.
Proof.
  unfold emit. induction l as [|s l IH]; intros os; cbn [fold_left map]; [cbn; induction os; cbn; congruence|].
  rewrite IH, sassoc. f_equal. destruct l; cbn; [|rewrite !sassoc; reflexivity]. rewrite !sassoc. reflexivity.
Qed.

(** After any history the command list prints the names of the signals added, in order, as often as they were added. *)
Theorem event_list_text p name h e : ofold (ev_exec p) h event_new = Ok e ->
  event_list name e = ("(" ++ String.concat "" (map (fun s => "'" ++ name s ++ "', ") (added p h)) ++ ")")%string.
Proof. intros E. unfold event_list. rewrite (ev_triggers _ _ _ _ E). cbn [triggers event_new app]. rewrite emit_text, sassoc. reflexivity. Qed.
(** A signal is added exactly when its name is known; otherwise the command is refused and the event is as before. *)
Theorem event_add_signal p e n :
  (forall s, p n = Some s -> fst (addSignal p e n) = Ok tt /\ triggers (snd (addSignal p e n)) = triggers e ++ [s]) /\
  (p n = None -> (exists w, fst (addSignal p e n) = Throw w) /\ snd (addSignal p e n) = e).
Proof. unfold addSignal. split; [intros s ->|intros ->]; cbn; eauto. Qed.
(** When the event fires, the signals recomputed are exactly those the command list shows, in the same order. *)
Theorem event_fires_listed p h v l : ev_fired p h v = Ok l -> l = [] \/ l = added p h.
Proof.
  unfold ev_fired. destruct (ofold (ev_exec p) h event_new) as [e|w|] eqn:E; cbn [bind]; try discriminate. apply ev_triggers in E. cbn in E.
  unfold event_check. destruct (_ && _ && _)%bool; cbn; [discriminate|]. destruct (_ || _)%bool; cbn; intros H; injection H as <-; [right; exact E|left; reflexivity].
Qed.
(** The text determines the names. *)
Lemma cut (a b x y : string) : no_apostrophe a -> no_apostrophe b -> (a ++ "'" ++ x = b ++ "'" ++ y)%string -> a = b /\ x = y.
Proof.
  unfold no_apostrophe. revert b. induction a as [|c a IH]; intros [|d b] A B E; cbn in *.
  - injection E as ->. auto.
  - injection E as <- _. tauto.
  - injection E as -> _. tauto.
  - injection E as -> E. destruct (IH b) as (-> & ->); auto.
Qed.
Lemma sapp_inj (q a b : string) : (q ++ a = q ++ b)%string -> a = b.
Proof. induction q as [|c q IH]; cbn; intros H; [exact H|]. injection H as H. auto. Qed.
Theorem event_list_faithful name1 name2 e1 e2 :
  (forall s, In s (triggers e1) -> no_apostrophe (name1 s)) -> (forall s, In s (triggers e2) -> no_apostrophe (name2 s)) ->
  event_list name1 e1 = event_list name2 e2 -> map name1 (triggers e1) = map name2 (triggers e2).
Proof.
  unfold event_list. rewrite !emit_text, !sassoc. intros H1 H2 E. apply sapp_inj in E. revert H1 H2 E.
  assert (C : forall (name : nat -> string) s l, (String.concat "" (map (fun s => "'" ++ name s ++ "', ") (s :: l)) ++ ")" = "'" ++ name s ++ "'" ++ ", " ++ String.concat "" (map (fun s => "'" ++ name s ++ "', ") l) ++ ")")%string).
  { intros name s l. cbn [map]. destruct (map (fun s0 => ("'" ++ name s0 ++ "', ")%string) l); cbn; rewrite !sassoc; reflexivity. }
  generalize (triggers e1) (triggers e2). induction l as [|s l IH]; intros [|u k] H1 H2 E; [reflexivity|..].
  - rewrite C in E. discriminate E.
  - rewrite C in E. discriminate E.
  - rewrite !C in E. apply sapp_inj in E. apply cut in E as (E & F); [|apply H1; left; reflexivity|apply H2; left; reflexivity].
    apply sapp_inj in F. cbn [map]. rewrite E. f_equal. apply IH; auto; intros; [apply H1|apply H2]; right; assumption.
Qed.

Example event_text_example :
  let p := fun n => if (n =? "a.s")%string then Some 1 else if (n =? "b.s")%string then Some 2 else None in
  let name := fun s => if (s =? 1)%nat then "a::s" else "b::s" in
  let h := [EAddSignal "b.s"; EEval false; EAddSignal "zz"; EAddSignal "a.s"; ERepeat 3; EAddSignal "b.s"] in
  (exists e, ofold (ev_exec p) h event_new = Ok e /\ event_list name e = "('b::s', 'a::s', 'b::s', )"%string) /\
  ev_fired p h true = Ok [2; 1; 2].
Proof. cbv zeta. split; [eexists; split; vm_compute; reflexivity|vm_compute; reflexivity]. Qed.

Print Assumptions event_list_text.
Print Assumptions event_add_signal.
Print Assumptions event_fires_listed.
Print Assumptions event_list_faithful.
