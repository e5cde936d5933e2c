(** Properties of the decorator of the calendar (C132). *)
From Coq Require Import String List Arith ZArith Bool Lia.
From Verif Require Import Base Calendar_Model Calendar_Props CalDeco_Model.
Import ListNotations.
Local Open Scope string_scope. Local Open Scope list_scope. Local Open Scope nat_scope.

Section Props.
Variable str : ckey -> string.
Variable show : nat -> string.
Notation decorate := (decorate str).
Notation run_all := (fold_left (xexec str)).

(** ** Specification *)
Definition doc_or (s : dcal) (f : nat) : string := match dc_doc s f with None => "No doc fun" | Some d => d end.
(** Commands name functions or objects that exist. *)
Definition known (s : dcal) (f : nat) : Prop := f < next_id s.
Fixpoint known_all (s : dcal) (h : list xcmd) : Prop :=
  match h with [] => True | x :: r => known s (match x with XDeco _ f | XReg _ f | XText _ f _ => f end) /\ known_all (xexec str s x) r end.

(** ** Proofs *)
Lemma registerEvent_at c k e c' : registerEvent c k e = Ok c' -> k <> KStop ->
  list_at c' k = list_at c k ++ [e] /\ (forall k', k' <> k -> dfind (c_events c') k' = dfind (c_events c) k') /\ c_ping c' = c_ping c.
Proof.
  unfold registerEvent. intros H K. destruct (ckey_eqb_spec k KStop) as [E|_]; [contradiction|]. cbn in H. injection H as <-. cbn.
  unfold list_at. cbn. split; [|split; [|reflexivity]].
  - rewrite dfind_dset. destruct (ckey_eqb_spec k k); [|congruence]. destruct (dfind (c_events c) k); reflexivity.
  - intros k' N. rewrite dfind_dset. destruct (ckey_eqb_spec k' k); [contradiction|reflexivity].
Qed.
Lemma register_ok c k e : k <> KStop -> exists c', registerEvent c k e = Ok c'.
Proof. intros K. unfold registerEvent. destruct (ckey_eqb_spec k KStop); [contradiction|]. cbn. eauto. Qed.

(** Decorating a function for a time registers it there, last, with its documentation or "No doc fun", and leaves the other times; a new
    object is made, and the calls of the former objects are as before. *)
Theorem decorate_registers s k f : k <> KStop ->
  exists s', decorate s k f = (s', Ok (next_id s)) /\
    list_at (dc_cal s') k = list_at (dc_cal s) k ++ [(f, Some (doc_or s f))] /\
    (forall k', k' <> k -> dfind (c_events (dc_cal s')) k' = dfind (c_events (dc_cal s)) k') /\ c_ping (dc_cal s') = c_ping (dc_cal s) /\
    dc_decos s' = dc_decos s ++ [f] /\ dc_base s' = dc_base s /\ next_id s' = S (next_id s).
Proof.
  intros K. unfold CalDeco_Model.decorate, doc_or. set (d := match dc_doc s f with None => _ | Some d => d end). cbn [registerEvents].
  destruct (register_ok (dc_cal s) k (f, Some d) K) as (c & E). rewrite E. eexists. split; [reflexivity|].
  destruct (registerEvent_at _ _ _ _ E K) as (A & B & C). cbn. unfold next_id. cbn. rewrite app_length. cbn. repeat split; auto. lia.
Qed.

(** The documentation: of the function, completed; of the object, with the time; of the others, as it was. *)
Theorem decorated_docs s k f : k <> KStop -> known s f ->
  exists s', decorate s k f = (s', Ok (next_id s)) /\ dc_doc s' f = Some (doc_or s f) /\
    dc_doc s' (next_id s) = (if String.eqb (doc_or s f) "" then None else Some (doc_or s f ++ " (will be run at time " ++ str k ++ ")")%string) /\
    forall g, g <> f -> g <> next_id s -> dc_doc s' g = dc_doc s g.
Proof.
  intros K Kf. unfold CalDeco_Model.decorate, doc_or, known in *. set (d := match dc_doc s f with None => _ | Some d => d end). cbn [registerEvents].
  destruct (register_ok (dc_cal s) k (f, Some d) K) as (c & E). rewrite E. eexists. split; [reflexivity|]. cbn. rewrite !Nat.eqb_refl.
  destruct (Nat.eqb_spec f (next_id s)); [lia|]. repeat split. intros g N1 N2. destruct (Nat.eqb_spec g (next_id s)); [contradiction|]. destruct (Nat.eqb_spec g f); [contradiction|reflexivity].
Qed.

(** *** Every object ends in a function *)
Definition valid (s : dcal) : Prop :=
  (forall i f, nth_error (dc_decos s) i = Some f -> f < dc_base s + i) /\
  (forall k f d, In (f, d) (list_at (dc_cal s) k) -> f < next_id s).
Lemma target_more decos base g : (forall i f, nth_error decos i = Some f -> f < base + i) -> forall n m f, f < base + length decos -> f < base + n -> f < base + m ->
  target_in decos base n f = target_in decos base m f /\ target_in decos base n f = target_in (decos ++ [g]) base m f /\ (target_in decos base n f < base).
Proof.
  intros V. induction n as [|n IH]; intros m f Hl Hn Hm; cbn [target_in].
  - destruct m; cbn [target_in]; destruct (Nat.ltb_spec f base); try lia; auto.
  - destruct m as [|m]; cbn [target_in]; destruct (Nat.ltb_spec f base) as [L|L]; auto; [lia|].
    destruct (nth_error decos (f - base)) as [h|] eqn:E; [|apply nth_error_None in E; lia].
    rewrite nth_error_app1, E by lia. specialize (V _ _ E). apply IH; lia.
Qed.
Lemma list_at_other c c' k : dfind (c_events c') k = dfind (c_events c) k -> list_at c' k = list_at c k.
Proof. intro E. unfold list_at. now rewrite E. Qed.
Lemma register_in c k e c' k' x : registerEvent c k e = Ok c' -> In x (list_at c' k') -> In x (list_at c k') \/ x = e.
Proof.
  unfold registerEvent. destruct (ckey_eqb_spec k KStop) as [->|K].
  - unfold list_at. destruct (dfind (c_events c) KAlways) as [l|] eqn:A; cbn; [|discriminate]. pose proof (remove1_spec l e) as R.
    destruct (remove1 l e) as [l'| |]; cbn; try discriminate. destruct R as [_ ->]. injection 1 as <-. cbn. rewrite !dfind_dset. cbn.
    destruct (ckey_eqb_spec k' KStop) as [->|]; [|destruct (ckey_eqb_spec k' KAlways) as [->|]].
    + destruct (dfind (c_events c) KStop); cbn; rewrite ?in_app_iff; cbn; intuition.
    + rewrite A. intro H. left. clear -H. induction l as [|y l IH]; cbn in *; [easy|]. destruct (event_dec y e); cbn in *; intuition.
    + auto.
  - cbn. injection 1 as <-. unfold list_at. cbn. rewrite dfind_dset. destruct (ckey_eqb_spec k' k) as [->|]; [|auto].
    destruct (dfind (c_events c) k); cbn; rewrite ?in_app_iff; cbn; intuition.
Qed.
Lemma valid_step s x : valid s -> known s (match x with XDeco _ f | XReg _ f | XText _ f _ => f end) -> valid (xexec str s x) /\ next_id s <= next_id (xexec str s x).
Proof.
  intros (V1 & V2) Kn. destruct x as [k f|k f|k f d]; cbn [xexec].
  - unfold CalDeco_Model.decorate. set (d := match dc_doc s f with None => _ | Some d => d end). cbn [registerEvents].
    destruct (registerEvent (dc_cal s) k (f, Some d)) as [c| |] eqn:E; cbn [fst].
    + unfold next_id in *. cbn. rewrite app_length. cbn. split; [|lia]. split; cbn.
      * intros i g Hg. destruct (Nat.lt_ge_cases i (length (dc_decos s))) as [L|L]; [rewrite nth_error_app1 in Hg by exact L; now apply V1|].
        rewrite nth_error_app2 in Hg by exact L. destruct (i - length (dc_decos s)) as [|j] eqn:J; cbn in Hg; [|destruct j; discriminate].
        injection Hg as <-. unfold known, next_id in Kn. lia.
      * intros k' g dd Hg. unfold next_id. cbn. rewrite app_length. cbn. destruct (register_in _ _ _ _ _ _ E Hg) as [Ho|Eo].
        -- specialize (V2 _ _ _ Ho). lia.
        -- injection Eo as -> _. unfold known, next_id in Kn. lia.
    + split; [|reflexivity]. split; assumption.
    + split; [|reflexivity]. split; assumption.
  - unfold register_one. cbn. destruct (registerEvent (dc_cal s) k (f, dc_doc s f)) as [c| |] eqn:E; cbn; (split; [|reflexivity]); split; auto.
    intros k' g dd Hg. destruct (register_in _ _ _ _ _ _ E Hg) as [Ho|Eo]; [now apply (V2 k' g dd)|]. injection Eo as -> _. exact Kn.
  - unfold register_doc. cbn. destruct (registerEvent (dc_cal s) k (f, Some d)) as [c| |] eqn:E; cbn; (split; [|reflexivity]); split; auto.
    intros k' g dd Hg. destruct (register_in _ _ _ _ _ _ E Hg) as [Ho|Eo]; [now apply (V2 k' g dd)|]. injection Eo as -> _. exact Kn.
Qed.
Lemma valid_run h : forall s, valid s -> known_all s h -> valid (run_all h s).
Proof. induction h as [|x h IH]; intros s V K; [exact V|]. destruct K as [K1 K2]. cbn. apply IH; [apply valid_step; assumption|exact K2]. Qed.
Lemma valid_new base doc : valid (dcal_new base doc).
Proof. split; cbn; [intros [|i] f; discriminate|]. intros k f d []. Qed.

(** Calling an object calls the function that was decorated; all the calls of a run are calls of functions. *)
Theorem decorated_call base doc h k f : let s := run_all h (dcal_new base doc) in known_all (dcal_new base doc) h -> known s f -> k <> KStop ->
  exists s' o, decorate s k f = (s', Ok o) /\ target s' o = target s f /\ (forall g, known s g -> target s' g = target s g) /\ target s f < dc_base s.
Proof.
  intros s K Kf Ks. pose proof (valid_run h _ (valid_new base doc) K) as V. fold s in V. destruct (decorate_registers s k f Ks) as (s' & E & _ & _ & _ & D & B & _).
  exists s', (next_id s). split; [exact E|]. unfold target. rewrite D, B, app_length. cbn [length]. destruct V as [V1 _].
  assert (T : forall g, known s g -> target_in (dc_decos s) (dc_base s) (length (dc_decos s)) g = target_in (dc_decos s ++ [f]) (dc_base s) (length (dc_decos s) + 1) g /\ target_in (dc_decos s) (dc_base s) (length (dc_decos s)) g < dc_base s).
  { intros g Kg. unfold known, next_id in Kg. destruct (target_more (dc_decos s) (dc_base s) f V1 (length (dc_decos s)) (length (dc_decos s) + 1) g) as (_ & A & C); try lia; auto. }
  split; [|split; [intros g Kg; symmetry; apply T, Kg|apply T, Kf]].
  rewrite Nat.add_1_r. cbn [target_in]. unfold next_id. destruct (Nat.ltb_spec (dc_base s + length (dc_decos s)) (dc_base s)); [lia|].
  replace (dc_base s + length (dc_decos s) - dc_base s) with (length (dc_decos s)) by lia. rewrite nth_error_app2, Nat.sub_diag by lia. cbn.
  unfold known, next_id in Kf. symmetry. apply (target_more (dc_decos s) (dc_base s) f V1 (length (dc_decos s)) (length (dc_decos s)) f); lia.
Qed.
Theorem decorated_runs base doc h k : let s := run_all h (dcal_new base doc) in known_all (dcal_new base doc) h ->
  Forall (fun f => f < base) (calls_at s k).
Proof.
  intros s K. pose proof (valid_run h _ (valid_new base doc) K) as V. fold s in V. destruct V as [V1 V2].
  assert (B : dc_base s = base /\ c_ping (dc_cal s) = []).
  { unfold s. change base with (dc_base (dcal_new base doc)) at 2. assert (P0 : c_ping (dc_cal (dcal_new base doc)) = []) by reflexivity. revert P0. generalize (dcal_new base doc). clear.
    induction h as [|x h IH]; intros s P0; [auto|]. cbn [fold_left].
    assert (Q : dc_base (xexec str s x) = dc_base s /\ c_ping (dc_cal (xexec str s x)) = []).
    { assert (RP : forall c k e c', registerEvent c k e = Ok c' -> c_ping c' = c_ping c).
      { intros c k e c'. unfold registerEvent. destruct (ckey_eqb k KStop); [destruct (dfind _ _) as [l|]; [|discriminate]; destruct (remove1 l e); try discriminate|]; cbn; injection 1 as <-; reflexivity. }
      destruct x as [k f|k f|k f d]; cbn [xexec]; unfold CalDeco_Model.decorate, register_one, register_doc; cbn [registerEvents ofold event_of bind].
      - destruct (registerEvent _ _ _) as [c| |] eqn:E; cbn; auto. rewrite (RP _ _ _ _ E). auto.
      - destruct (registerEvent _ _ _) as [c| |] eqn:E; cbn; auto. rewrite (RP _ _ _ _ E). auto.
      - destruct (registerEvent _ _ _) as [c| |] eqn:E; cbn; auto. rewrite (RP _ _ _ _ E). auto. }
    destruct Q as (Q1 & Q2). destruct (IH _ Q2) as (A & C). rewrite A, Q1. auto. }
  destruct B as (B & Pg). unfold calls_at. apply Forall_forall. intros g Hg. apply in_map_iff in Hg as (f & <- & Hf).
  assert (Kf : f < next_id s).
  { unfold run in Hf. rewrite Pg in Hf. apply in_app_or in Hf as [Hf|Hf].
    - destruct (dfind (c_events (dc_cal s)) KAlways) as [l|] eqn:E; [|destruct Hf]. apply in_map_iff in Hf as ([f' d] & <- & Hf). apply (V2 KAlways f' d). unfold list_at. now rewrite E.
    - destruct (dfind (c_events (dc_cal s)) k) as [l|] eqn:E; [|destruct Hf]. apply in_map_iff in Hf as ([f' d] & <- & Hf). apply (V2 k f' d). unfold list_at. now rewrite E. }
  rewrite <- B. unfold target, next_id in *. apply (target_more (dc_decos s) (dc_base s) 0 V1 (length (dc_decos s)) (length (dc_decos s)) f); lia.
Qed.

(** Stopping a function decorated to run always: the object that the decorator left under its name cannot be stopped, the function
    it holds can. *)
Theorem decorated_stop_refuted base doc h f : let s := run_all h (dcal_new base doc) in known_all (dcal_new base doc) h -> known s f ->
  exists s' o, decorate s KAlways f = (s', Ok o) /\ stop_one s' o = (s', Throw "ValueError") /\ In (f, Some (doc_or s f)) (list_at (dc_cal s') KAlways).
Proof.
  intros s K Kf. pose proof (valid_run h _ (valid_new base doc) K) as V. fold s in V. destruct V as [V1 V2].
  destruct (decorate_registers s KAlways f ltac:(discriminate)) as (s' & E & A & _). exists s', (next_id s). split; [exact E|].
  split; [|rewrite A; apply in_or_app; right; now left].
  unfold stop_one, register_one. cbn [registerEvents ofold event_of bind]. unfold registerEvent. cbn [ckey_eqb].
  unfold list_at in A. destruct (dfind (c_events (dc_cal s')) KAlways) as [l|] eqn:D; [|destruct (dfind (c_events (dc_cal s)) KAlways) as [[|? ?]|]; discriminate].
  pose proof (remove1_spec l (next_id s, dc_doc s' (next_id s))) as R. destruct (remove1 l _) as [l'|w|]; [exfalso| |destruct R].
  - destruct R as [R _]. rewrite A in R. apply in_app_or in R as [R|[R|[]]].
    + unfold known in *. specialize (V2 KAlways (next_id s) (dc_doc s' (next_id s)) R). lia.
    + injection R as R _. unfold known in Kf. lia.
  - destruct R as [_ ->]. reflexivity.
Qed.
Theorem decorated_stop base doc h f : let s := run_all h (dcal_new base doc) in known_all (dcal_new base doc) h -> known s f ->
  exists s' o s2, decorate s KAlways f = (s', Ok o) /\ stop_one s' f = (s2, Ok tt) /\
    list_at (dc_cal s2) KAlways = drop_first (f, Some (doc_or s f)) (list_at (dc_cal s') KAlways).
Proof.
  intros s K Kf. destruct (decorate_registers s KAlways f ltac:(discriminate)) as (s' & E & A & _). exists s', (next_id s).
  assert (D : dc_doc s' f = Some (doc_or s f)).
  { revert E. unfold CalDeco_Model.decorate, doc_or. set (d := match dc_doc s f with None => _ | Some d => d end). cbn [registerEvents].
    destruct (registerEvent _ _ _) as [c| |]; try discriminate. injection 1 as <-. cbn. unfold known in Kf. destruct (Nat.eqb_spec f (next_id s)); [lia|]. now rewrite Nat.eqb_refl. }
  unfold stop_one, register_one. rewrite D. cbn [registerEvents ofold event_of bind]. unfold registerEvent. cbn [ckey_eqb].
  unfold list_at in *. destruct (dfind (c_events (dc_cal s')) KAlways) as [l|] eqn:F; [|destruct (dfind (c_events (dc_cal s)) KAlways) as [[|? ?]|]; discriminate].
  pose proof (remove1_spec l (f, Some (doc_or s f))) as R. destruct (remove1 l _) as [l'|w|]; [| |destruct R].
  - destruct R as [_ ->]. cbn [bind]. eexists. split; [exact E|]. split; [reflexivity|]. cbn. rewrite !dfind_dset. cbn. reflexivity.
  - exfalso. apply R. rewrite A. apply in_or_app. right. now left.
Qed.

(** What a run prints: one line per event of its time, in order, with the text it was registered with, or else with
    the documentation or the name of the function. *)
Theorem run_prints s t : printed str show s (KTick t) = map (line str show s (KTick t)) (list_at (dc_cal s) (KTick t)) /\
  forall f d, line str show s (KTick t) (f, Some d) = ("At time " ++ str (KTick t) ++ ":  " ++ d)%string /\
    (dc_doc s f = Some d -> line str show s (KTick t) (f, None) = ("At time " ++ str (KTick t) ++ ":  " ++ d)%string) /\
    (dc_doc s f = None -> line str show s (KTick t) (f, None) = ("At time " ++ str (KTick t) ++ ":  Runing  " ++ show f)%string).
Proof.
  split; [|intros f d; split; [reflexivity|]; unfold line; cbn [fst snd]; split; intros ->; reflexivity]. unfold printed, list_at. now destruct (dfind _ _). Qed.
End Props.

(** A function decorated for time 3, its object registered for time 5 and for always, another function decorated without doc. *)
Example decorated_example :
  let str := fun k => match k with KTick 3 => "3" | _ => "?" end in
  let doc := fun f => if Nat.eqb f 0 then Some "go" else None in
  let h := [XDeco (KTick 3) 0; XReg (KTick 5) 2; XReg KAlways 2; XDeco (KTick 3) 1; XDeco (KTick 3) 2] in
  let s := fold_left (xexec str) h (dcal_new 2 doc) in
  known_all str (dcal_new 2 doc) h /\
  calls_at s (KTick 3) = [0; 0; 1; 0] /\ calls_at s (KTick 5) = [0; 0] /\ calls_at s (KTick 4) = [0] /\
  printed str (fun _ => "f") s (KTick 3) = ["At time 3:  go"; "At time 3:  No doc fun"; "At time 3:  go (will be run at time 3)"].
Proof. vm_compute. repeat split; lia. Qed.

Print Assumptions decorate_registers.
Print Assumptions decorated_docs.
Print Assumptions decorated_call.
Print Assumptions decorated_runs.
Print Assumptions decorated_stop_refuted.
Print Assumptions decorated_stop.
Print Assumptions run_prints.
