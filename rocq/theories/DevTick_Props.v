(** Properties of the step of the device with its periodic calls (C130). *)
From Coq Require Import String List Arith ZArith Bool Lia Sorted.
From Verif Require Import Base SMap Sched_Model Sched_Props DevTick_Model.
From Verif Require Device_Model.
Import ListNotations.
Local Open Scope Z_scope.

Definition name_before (a b : string) : Prop := String.compare a b = Lt.

Lemma compare_self s : String.compare s s = Eq.
Proof. induction s as [|a s IH]; cbn; [reflexivity|]. unfold Ascii.compare. now rewrite N.compare_refl. Qed.
Section Props.
Variable num : Type.
Variables zero half : num.
Variables add mul : num -> num -> num.
Variable ltb : num -> num -> bool.
Variable isnan : num -> bool.
Variable ffint : list num -> list num -> num -> num * num * num * num * num * num.
Notation run := (dk_run num zero half add mul ltb isnan ffint).
Notation step := (dk_step num zero half add mul ltb isnan ffint).
Notation inc := (dk_increment num half add mul ltb isnan ffint).
Notation drun := (Device_Model.drun num zero half add mul ltb isnan ffint).

(** ** Specification *)
(** The changes made to each list; a call is due when its factor divides the time. *)
Definition befores (h : list (kcmd num)) : list pcall := flat_map (fun c => match c with KBefore c => [c] | _ => [] end) h.
Definition afters (h : list (kcmd num)) : list pcall := flat_map (fun c => match c with KAfter c => [c] | _ => [] end) h.
Definition due (h : list pcall) (t : Z) (n : string) : Prop := exists s f, latest h n = Some (s, f) /\ (f | t).
(** The names called: those due, in the order of the names, up to the first that raises. *)
Definition called (raises : string -> bool) (h : list pcall) (t : Z) (l : list string) : Prop :=
  StronglySorted name_before l /\
  forall n, In n l <-> due h t n /\ forall m, due h t m -> name_before m n -> raises m = false.
Definition no_null_factor (h : list pcall) : Prop := forall n s f, latest h n = Some (s, f) -> f <> 0.

(** A trace in order, the state published last being that of time [t]: calls made before a step and the publication carry the
    next time, the control is read at the present time, calls made after carry the time just published. *)
Fixpoint ordered (t : Z) (l : list (ev num)) : Prop :=
  match l with
  | [] => True
  | EBefore _ u :: r => u = t + 1 /\ ordered t r
  | EControl u :: r => u = t /\ ordered t r
  | EState u _ :: r => u = t + 1 /\ ordered u r
  | EAfter _ u :: r => u = t /\ ordered t r
  | EMotor _ :: r => ordered t r
  end.
Definition published (l : list (ev num)) : list Z := flat_map (fun e => match e with EState u _ => [u] | _ => [] end) l.
(** The commands the device itself sees. *)
Definition commands (h : list (kcmd num)) : list (Device_Model.dcmd num) :=
  flat_map (fun c => match c with
                     | KDev (Device_Model.DStep _ _) => []
                     | KDev c => [c]
                     | KInc (Ok u) dt _ _ => [Device_Model.DStep u dt]
                     | _ => [] end) h.

(** ** Lists of calls *)
Fixpoint upto (raises : string -> bool) (l : list string) : list string :=
  match l with [] => [] | n :: r => if raises n then [n] else n :: upto raises r end.
Lemma run_calls_upto raises p t l : runSignals p t = Ok l -> run_calls raises p t = Ok (upto raises (map fst l)).
Proof.
  revert l. induction p as [|[n c] p IH]; intros l; cbn; [injection 1 as <-; reflexivity|].
  destruct (factor c =? 0); [discriminate|]. destruct (runSignals p t) as [rest| |]; cbn; try discriminate. injection 1 as <-.
  destruct (to_unsigned t mod factor c =? 0); [|apply IH; reflexivity]. cbn. destruct (raises n); [reflexivity|]. rewrite (IH rest eq_refl). reflexivity.
Qed.
Lemma upto_incl raises l n : In n (upto raises l) -> In n l.
Proof. induction l as [|m l IH]; cbn; [auto|]. destruct (raises m); cbn; intuition. Qed.
Lemma upto_sorted raises l : StronglySorted name_before l -> StronglySorted name_before (upto raises l).
Proof.
  induction 1 as [|n l S IH F]; cbn; [constructor|]. destruct (raises n); [repeat constructor|]. constructor; [exact IH|].
  apply Forall_forall. intros m Hm. rewrite Forall_forall in F. apply F, (upto_incl raises), Hm.
Qed.
Lemma upto_in raises l n : StronglySorted name_before l ->
  (In n (upto raises l) <-> In n l /\ forall m, In m l -> name_before m n -> raises m = false).
Proof.
  induction 1 as [|k l S IH F]; cbn; [intuition|]. rewrite Forall_forall in F.
  destruct (raises k) eqn:K; cbn.
  - split.
    + intros [->|[]]. split; [auto|]. intros m [->|Hm] L.
      * unfold name_before in L. rewrite compare_self in L. discriminate.
      * specialize (F m Hm). unfold name_before in *. rewrite String.compare_antisym, L in F. discriminate.
    + intros [[->|Hn] H]; [auto|]. exfalso. specialize (H k (or_introl eq_refl) (F n Hn)). congruence.
  - rewrite IH. split.
    + intros [->|[Hn H]]; [split; [auto|]|split; [auto|]].
      * intros m [->|Hm] L; [exact K|]. specialize (F m Hm). unfold name_before in *. rewrite String.compare_antisym, L in F. discriminate.
      * intros m [->|Hm] L; [exact K|]. apply H; assumption.
    + intros [[->|Hn] H]; [auto|]. right. split; [exact Hn|]. intros m Hm. apply H. right. exact Hm.
Qed.
Lemma run_calls_called raises h t : 0 <= t <= int_max -> no_null_factor h ->
  exists l, run_calls raises (pc_run h) t = Ok l /\ called raises h t l.
Proof.
  intros Ht Hz. destruct (periodic_tick h t Ht Hz) as (l & E & S & I). exists (upto raises (map fst l)). split; [apply run_calls_upto, E|].
  assert (S' : StronglySorted name_before (map fst l)).
  { clear -S. induction S as [|a l S IH F]; cbn; constructor; [exact IH|]. apply Forall_forall. intros n Hn. apply in_map_iff in Hn as (b & <- & Hb). rewrite Forall_forall in F. exact (F b Hb). }
  assert (D : forall n, In n (map fst l) <-> due h t n).
  { intro n. unfold due. rewrite in_map_iff. split; [intros ([n' s] & <- & Hn); apply I in Hn as (f & Hf); exists s, f; exact Hf|].
    intros (s & f & Hf). exists (n, s). split; [reflexivity|]. apply I. exists f. exact Hf. }
  split; [apply upto_sorted, S'|]. intro n. rewrite (upto_in raises _ n S'), D. split; intros [A B]; split; auto; intros m Hm; apply B; apply D; exact Hm.
Qed.

(** ** Histories *)
Ltac split_let := repeat match goal with
  | H : bind ?o _ = Ok _ |- _ => let E := fresh "E" in destruct o eqn:E; cbn [bind] in H; [|discriminate H|discriminate H]
  | H : (let (_, _) := ?p in _) = Ok _ |- _ => destruct p
  end.
Lemma run_snoc h c s s' l : run (h ++ [c]) s = Ok (s', l) ->
  exists s1 l1 l2, run h s = Ok (s1, l1) /\ step s1 c = Ok (s', l2) /\ l = l1 ++ l2.
Proof.
  unfold dk_run. rewrite ofold_app. destruct (ofold _ h (s, [])) as [[s1 l1]| |] eqn:E; cbn [bind ofold fst snd]; try discriminate.
  destruct (step s1 c) as [[s2 l2]| |] eqn:E2; cbn [bind]; try discriminate. injection 1 as <- <-. exists s1, l1, l2. auto.
Qed.
Lemma step_lists s c s' l : step s c = Ok (s', l) ->
  dk_before s' = fold_left pc_step (befores [c]) (dk_before s) /\ dk_after s' = fold_left pc_step (afters [c]) (dk_after s).
Proof.
  destruct c as [c|c|c|u dt rb ra]; cbn [dk_step befores afters flat_map app fold_left].
  - destruct c; intro H; try (destruct (command _ _ _ _ _ _ _ _ _) as [d| |]; try discriminate); injection H as <- _; split; reflexivity.
  - injection 1 as <- _. split; reflexivity.
  - injection 1 as <- _. split; reflexivity.
  - unfold dk_increment. intro H. destruct (dk_time s =? int_max); [discriminate H|]. split_let.
    destruct u as [v| |]; cbn in E.
    + destruct (integrate_publish _ _ _ _ _ _ _ _ _ _) as [dd| |]; try discriminate; split_let; injection E as <- _ _; injection H as <- _; split; reflexivity.
    + injection E as <- _ _. injection H as <- _. split; reflexivity.
    + discriminate E.
Qed.
Lemma run_lists h : forall s s' l, run h s = Ok (s', l) ->
  dk_before s' = fold_left pc_step (befores h) (dk_before s) /\ dk_after s' = fold_left pc_step (afters h) (dk_after s).
Proof.
  induction h as [|c h IH] using rev_ind; intros s s' l H; [injection H as <- _; split; reflexivity|].
  apply run_snoc in H as (s1 & l1 & l2 & E1 & E2 & _). destruct (IH _ _ _ E1) as (B & A). destruct (step_lists _ _ _ _ E2) as (B2 & A2).
  unfold befores, afters in *. rewrite !flat_map_app, !fold_left_app, B2, A2, B, A. split; reflexivity.
Qed.

(** What a step does, after any changes to the lists: the calls due at the next time, up to the first that raises; the control at the
    present time; the state and the calls at the next time; the motor control is the state. *)
Theorem device_step_trace : forall h d t s l u dt rb ra d',
  run h (DTick d t [] []) = Ok (s, l) -> -1 <= dk_time s < int_max ->
  no_null_factor (befores h) -> no_null_factor (afters h) ->
  Device_Model.increment num half add mul ltb isnan ffint (dk_dev s) u dt = Ok d' ->
  exists nb na s',
    run (h ++ [KInc (Ok u) dt rb ra]) (DTick d t [] []) = Ok (s', l ++ map (fun n => EBefore n (dk_time s + 1)) nb ++
      EControl (dk_time s) :: EState (dk_time s + 1) (Device_Model.state d') ::
      map (fun n => EAfter n (dk_time s + 1)) na ++ [EMotor (Device_Model.state d')]) /\
    called rb (befores h) (dk_time s + 1) nb /\ called ra (afters h) (dk_time s + 1) na /\
    dk_dev s' = d' /\ dk_time s' = dk_time s + 1.
Proof.
  intros h d t s l u dt rb ra d' E Ht Hb Ha I. destruct (run_lists _ _ _ _ E) as (B & A). cbn [dk_before dk_after] in B, A.
  destruct (run_calls_called rb (befores h) (dk_time s + 1) ltac:(lia) Hb) as (nb & Eb & Cb).
  destruct (run_calls_called ra (afters h) (dk_time s + 1) ltac:(lia) Ha) as (na & Ea & Ca).
  exists nb, na, (DTick d' (dk_time s + 1) (dk_before s) (dk_after s)). split; [|auto].
  unfold dk_run in *. rewrite ofold_app, E. cbn [bind ofold fst snd dk_step]. unfold dk_increment.
  replace (dk_time s =? int_max) with false by (symmetry; apply Z.eqb_neq; lia).
  change (fold_left pc_step (befores h) []) with (pc_run (befores h)) in B. change (fold_left pc_step (afters h) []) with (pc_run (afters h)) in A.
  rewrite B, A, Eb. cbn [bind]. unfold integrate_publish. rewrite I. rewrite Ea. cbn [bind].
  assert (S : Device_Model.stateOut d' = Device_Model.state d').
  { revert I. unfold Device_Model.increment. destruct (Device_Model.integrate _ _ _ _ _ _ _ _ _ _) as [d1| |]; cbn; try discriminate. injection 1 as <-. reflexivity. }
  rewrite S. reflexivity.
Qed.

(** A control that raises: the calls due before the control have been made, nothing is published, and the device and its time are as
    they were. *)
Theorem device_step_raised : forall h d t s l e dt rb ra,
  run h (DTick d t [] []) = Ok (s, l) -> -1 <= dk_time s < int_max -> no_null_factor (befores h) ->
  exists nb,
    run (h ++ [KInc (Throw e) dt rb ra]) (DTick d t [] []) =
      Ok (s, l ++ map (fun n => EBefore n (dk_time s + 1)) nb ++ [EControl (dk_time s)]) /\
    called rb (befores h) (dk_time s + 1) nb.
Proof.
  intros h d t s l e dt rb ra E Ht Hb. destruct (run_lists _ _ _ _ E) as (B & _). cbn [dk_before dk_after] in B.
  destruct (run_calls_called rb (befores h) (dk_time s + 1) ltac:(lia) Hb) as (nb & Eb & Cb).
  exists nb. split; [|exact Cb].
  unfold dk_run in *. rewrite ofold_app, E. cbn [bind ofold fst snd dk_step]. unfold dk_increment.
  replace (dk_time s =? int_max) with false by (symmetry; apply Z.eqb_neq; lia).
  change (fold_left pc_step (befores h) []) with (pc_run (befores h)) in B. rewrite B, Eb. reflexivity.
Qed.

(** What the caller of a step sees: the exception of the control or of the integration and nothing changed, or no exception and a
    state published; an exception of a periodic call is never seen. *)
Theorem device_step_report : forall s u dt rb ra s' o l, inc s u dt rb ra = Ok (s', o, l) ->
  match o with
  | Some e => s' = s /\ published l = [] /\
      (u = Throw e \/ exists v, u = Ok v /\ Device_Model.increment num half add mul ltb isnan ffint (dk_dev s) v dt = Throw e)
  | None => dk_time s' = dk_time s + 1 /\ published l = [dk_time s + 1] /\
      exists v, u = Ok v /\ Device_Model.increment num half add mul ltb isnan ffint (dk_dev s) v dt = Ok (dk_dev s')
  end.
Proof.
  assert (P : forall nb t, published (map (fun n => EBefore n t) nb) = []) by (intros nb t; induction nb; cbn; auto).
  assert (A : forall na t, published (map (fun n => EAfter n t) na) = []) by (intros na t; induction na; cbn; auto).
  assert (Q : forall a b, published (a ++ b) = published a ++ published b) by (intros; apply flat_map_app).
  intros s u dt rb ra s' o l H. unfold dk_increment in H. destruct (dk_time s =? int_max); [discriminate H|]. split_let.
  destruct u as [v| |e]; cbn in H; [|try discriminate H|try discriminate H].
  - fold (Device_Model.increment num half add mul ltb isnan ffint) in H. unfold integrate_publish in H.
    destruct (Device_Model.increment num half add mul ltb isnan ffint (dk_dev s) v dt) as [d| |e] eqn:I; try discriminate H.
    + split_let. injection H as <- <- <-. cbn [dk_time dk_dev]. split; [reflexivity|]. split; [rewrite !Q, P; cbn; rewrite Q, A; reflexivity|]. exists v. auto.
    + injection H as <- <- <-. split; [reflexivity|]. split; [rewrite Q, P; reflexivity|]. right. exists v. auto.
  - injection H as <- <- <-. split; [reflexivity|]. split; [rewrite Q, P; reflexivity|]. left. reflexivity.
Qed.
(** A factor of 0 before the step is a division by zero, when no call raises before it is met. *)
Theorem device_null_factor : forall h d t s l n sg u dt rb ra,
  run h (DTick d t [] []) = Ok (s, l) -> latest (befores h) n = Some (sg, 0) -> (forall m, name_before m n -> rb m = false) ->
  inc s u dt rb ra = UB.
Proof.
  intros h d t s l n sg u dt rb ra E L R. destruct (run_lists _ _ _ _ E) as (B & _). cbn [dk_before] in B.
  destruct (pc_latest (befores h)) as (S & I). apply I in L. change (fold_left pc_step (befores h) []) with (pc_run (befores h)) in B.
  unfold dk_increment. destruct (dk_time s =? int_max); [reflexivity|]. rewrite B. replace (run_calls rb (pc_run (befores h)) (dk_time s + 1)) with (@UB (list string)); [reflexivity|]. symmetry.
  clear - S L R. induction S as [|[m c] p S IH F]; [destruct L|]. cbn. destruct (Z.eqb_spec (factor c) 0) as [|N]; [reflexivity|].
  destruct L as [L|L]; [injection L as -> ->; cbn in N; congruence|]. rewrite (IH L). rewrite Forall_forall in F. rewrite (R m (F _ L)). destruct (_ =? 0); reflexivity.
Qed.

(** *** The order of everything, for every history *)
Fixpoint clock (t : Z) (l : list (ev num)) : Z := match l with [] => t | EState u _ :: r => clock u r | _ :: r => clock t r end.
Lemma clock_app t l l' : clock t (l ++ l') = clock (clock t l) l'.
Proof. revert t. induction l as [|e l IH]; intro t; [reflexivity|]; destruct e; cbn; auto. Qed.
Lemma ordered_app t l l' : ordered t l -> ordered (clock t l) l' -> ordered t (l ++ l').
Proof. revert t. induction l as [|e l IH]; intros t; [cbn; auto|]; destruct e; cbn; auto; intros [A B] C; auto. Qed.
Lemma before_ord t nb r : ordered t r -> ordered t (map (fun n => EBefore n (t + 1)) nb ++ r).
Proof. induction nb; cbn; auto. Qed.
Lemma after_ord t nb r : ordered t r -> ordered t (map (fun n => EAfter n t) nb ++ r).
Proof. induction nb; cbn; auto. Qed.
Lemma before_clock t nb r (u : Z) : clock t (map (fun n => EBefore n u) nb ++ r) = clock t r.
Proof. induction nb; cbn; auto. Qed.
Lemma after_clock t nb r (u : Z) : clock t (map (fun n => EAfter n u) nb ++ r) = clock t r.
Proof. induction nb; cbn; auto. Qed.
Lemma step_ordered s c s' l : step s c = Ok (s', l) -> ordered (dk_time s) l /\ dk_time s' = clock (dk_time s) l.
Proof.
  destruct c as [c|c|c|u dt rb ra]; cbn [dk_step].
  - destruct c; intro H; try (destruct (command _ _ _ _ _ _ _ _ _) as [d| |]; try discriminate); injection H as <- <-; split; cbn; auto.
  - injection 1 as <- <-. split; cbn; auto.
  - injection 1 as <- <-. split; cbn; auto.
  - unfold dk_increment. intro H. destruct (dk_time s =? int_max); [discriminate H|]. split_let.
    destruct u as [v| |]; cbn in E.
    + destruct (integrate_publish _ _ _ _ _ _ _ _ _ _) as [dd| |]; try discriminate; split_let; injection E as <- _ <-; injection H as <- <-; split.
      * apply before_ord. cbn. split; [reflexivity|]. split; [reflexivity|]. apply after_ord. cbn. exact I.
      * rewrite before_clock. cbn. rewrite after_clock. reflexivity.
      * apply before_ord. cbn. auto.
      * rewrite before_clock. reflexivity.
    + injection E as <- _ <-. injection H as <- <-. split; [apply before_ord; cbn; auto|rewrite before_clock; reflexivity].
    + discriminate E.
Qed.
Lemma clock_published l : forall t, ordered t l ->
  published l = map (fun i => t + 1 + Z.of_nat i) (seq 0 (length (published l))) /\ clock t l = t + Z.of_nat (length (published l)).
Proof.
  induction l as [|e l IH]; intros t; cbn; [intros _; split; [reflexivity|lia]|].
  destruct e; cbn; intros H; try (apply IH; intuition; fail).
  destruct H as [-> H]. destruct (IH _ H) as (P & C). unfold published in *. split; [|rewrite C; lia]. f_equal; [lia|].
  rewrite P at 1. rewrite <- seq_shift, map_map. apply map_ext. intro i. lia.
Qed.
Theorem device_trace_ordered : forall h s s' l, run h s = Ok (s', l) ->
  ordered (dk_time s) l /\
  published l = map (fun i => dk_time s + 1 + Z.of_nat i) (seq 0 (length (published l))) /\
  dk_time s' = dk_time s + Z.of_nat (length (published l)).
Proof.
  intros h s s' l H. assert (K : ordered (dk_time s) l /\ dk_time s' = clock (dk_time s) l).
  { revert s' l H. induction h as [|c h IH] using rev_ind; intros s' l H; [injection H as <- <-; split; cbn; auto|].
    apply run_snoc in H as (s1 & l1 & l2 & E1 & E2 & ->). destruct (IH _ _ E1) as (O & C). destruct (step_ordered _ _ _ _ E2) as (O2 & C2).
    rewrite C in O2, C2. split; [apply ordered_app; assumption|rewrite clock_app; exact C2]. }
  destruct K as (O & C). destruct (clock_published _ _ O) as (P & Q). rewrite C. auto.
Qed.

(** The device goes through its own commands and controls: the calls, raising or not, change nothing to it. *)
Theorem device_ignores_calls : forall h s s' l, run h s = Ok (s', l) -> drun (commands h) (dk_dev s) = Ok (dk_dev s').
Proof.
  intros h s s' l H. revert s' l H. induction h as [|c h IH] using rev_ind; intros s' l H; [injection H as <- _; reflexivity|].
  apply run_snoc in H as (s1 & l1 & l2 & E1 & E2 & ->). specialize (IH _ _ E1). unfold commands. rewrite flat_map_app. unfold Device_Model.drun in *.
  rewrite ofold_app. fold (commands h). rewrite IH. cbn [bind flat_map]. clear E1 IH. rewrite app_nil_r.
  destruct c as [c|c|c|u dt rb ra]; cbn [dk_step] in E2.
  - destruct c; try (injection E2 as <- _; reflexivity); cbn [ofold]; unfold Device_Model.dsend, command in *;
      destruct (Device_Model.dexec _ _ _ _ _ _ _ _ _ _) as [d| |]; try discriminate E2; injection E2 as <- _; reflexivity.
  - injection E2 as <- _; reflexivity.
  - injection E2 as <- _; reflexivity.
  - revert E2. unfold dk_increment. intro H. destruct (dk_time s1 =? int_max); [discriminate H|]. split_let.
    destruct u as [v| |]; cbn in E; [|injection E as <- _ _; injection H as <- _; reflexivity|discriminate E].
    cbn [ofold]. unfold Device_Model.dsend. cbn [Device_Model.dexec]. unfold integrate_publish in E.
    destruct (Device_Model.increment _ _ _ _ _ _ _ _ _ _) as [dd| |]; try discriminate; split_let; injection E as <- _ _; injection H as <- _; reflexivity.
Qed.
End Props.

(** ** Witnesses: a device of six degrees of freedom on integers *)
Definition zrun := dk_run Z 0 0 Z.add Z.mul Z.ltb (fun _ => false) (fun p v dt => (0, 0, 0, 0, 0, 0)).
Definition dev0 : Device_Model.device Z := Device_Model.dev_init Z 0.
Definition none (_ : string) := false.
Local Open Scope string_scope. Local Open Scope list_scope.

(** The order wanted of the calls made before and after: every call due is made at each step. *)
Definition all_called : Prop := forall h s l u dt rb ra s' l' n, zrun h (DTick dev0 0 [] []) = Ok (s, l) ->
  zrun (h ++ [KInc (Ok u) dt rb ra]) (DTick dev0 0 [] []) = Ok (s', l ++ l') ->
  due (befores Z h) (dk_time s + 1) n -> In (EBefore n (dk_time s + 1)) l'.
(** Nor is that so: a call that raises takes from the others, later in the order of the names, their turn. *)
Theorem device_call_starved_refuted : ~ all_called.
Proof.
  intro H.
  set (h := [@KDev Z Device_Model.DNoIntegration; KDev (Device_Model.DSanity false); KBefore (PAdd "a" 1); KBefore (PAdd "b" 2)]).
  assert (E1 : exists s, zrun h (DTick dev0 0 [] []) = Ok (s, []) /\ dk_time s = 0) by (eexists; split; vm_compute; reflexivity).
  assert (E2 : exists s', zrun (h ++ [KInc (Ok [5]) 1 (String.eqb "a") none]) (DTick dev0 0 [] []) =
    Ok (s', [EBefore "a" 1; EControl 0; EState 1 [0; 0; 0; 0; 0; 5]; EMotor [0; 0; 0; 0; 0; 5]])) by (eexists; vm_compute; reflexivity).
  destruct E1 as (s & E1 & T), E2 as (s' & E2). specialize (H h s [] [5] 1 (String.eqb "a") none s' _ "b" E1 E2). rewrite T in H.
  assert (D : due (befores Z h) (0 + 1) "b") by (exists 2%nat, 1; split; [reflexivity|exists 1; reflexivity]).
  destruct (H D) as [E|[E|[E|[E|[]]]]]; discriminate E.
Qed.
(** A call is made at most once for a time: not so, when reading the control raises. *)
Theorem device_call_repeated_refuted : exists h s l,
  zrun h (DTick dev0 0 [] []) = Ok (s, l) /\ l = [EBefore "a" 1; EControl 0; EBefore "a" 1; EControl 0; EState 1 [0; 0; 0; 0; 0; 5]; EMotor [0; 0; 0; 0; 0; 5]].
Proof.
  exists [KDev (Device_Model.DSanity false); KDev Device_Model.DNoIntegration; KBefore (PAdd "a" 1); KInc (Throw "no control") 1 none none; KInc (Ok [5]) 1 none none].
  eexists. eexists. split; vm_compute; reflexivity.
Qed.

(** The hypotheses are met: calls of two factors on both sides, one removed, one raising, three steps. *)
Example device_tick_example :
  let h := [KDev (Device_Model.DSanity false); KDev Device_Model.DNoIntegration; KBefore (PAddDown "a" 1 2); KBefore (PAdd "z" 2); KAfter (PAdd "c" 3); KAfter (PAdd "b" 4);
            KInc (Ok [5]) 1 none none; KBefore (PRm "z"); KInc (Ok [6; 7]) 1 none (String.eqb "b")] in
  exists s l, zrun h (DTick dev0 0 [] []) = Ok (s, l) /\ dk_time s = 2 /\
    l = [EBefore "z" 1; EControl 0; EState 1 [0; 0; 0; 0; 0; 5]; EAfter "b" 1; EAfter "c" 1; EMotor [0; 0; 0; 0; 0; 5];
         EBefore "a" 2; EControl 1; EState 2 [0; 0; 0; 0; 6; 7]; EAfter "b" 2; EMotor [0; 0; 0; 0; 6; 7]] /\
    no_null_factor (befores Z h) /\ no_null_factor (afters Z h).
Proof.
  cbv zeta. eexists. eexists. split; [vm_compute; reflexivity|]. split; [reflexivity|]. split; [reflexivity|].
  split; intros n s f; unfold latest; cbn -[String.eqb];
    repeat (match goal with |- context [String.eqb ?a ?b] => destruct (String.eqb a b) end; cbn -[String.eqb]); intro E; try discriminate E; injection E as _ <-; lia.
Qed.

Print Assumptions device_step_trace.
Print Assumptions device_step_raised.
Print Assumptions device_trace_ordered.
Print Assumptions device_ignores_calls.
Print Assumptions device_call_starved_refuted.
Print Assumptions device_call_repeated_refuted.
Print Assumptions device_step_report.
Print Assumptions device_null_factor.
