(** C102: the loader runs the graph only when started, uses only a live interface, and releases
    what it loaded. *)
From Coq Require Import String List Arith Lia ZArith Bool.
From Verif Require Import Base Loader_Model.
Import ListNotations.
Local Open Scope string_scope.
Local Open Scope list_scope.

(** ** Specification *)
(** Graph running: the last of Start and Stop is Start. *)
Definition running (h : list cmd) : bool :=
  fold_left (fun b c => match c with Start => true | Stop => false | _ => b end) h false.

(** What is outside a well behaved trace: using or destroying an interface that was not created or
    was destroyed before, closing a library more often than it was opened. *)
Definition opened (f : string) (tr : list event) : nat :=
  length (filter (fun e => match e with EOpen g => String.eqb g f | _ => false end) tr).
Definition closed (f : string) (tr : list event) : nat :=
  length (filter (fun e => match e with EClose g => String.eqb g f | _ => false end) tr).
Definition alive (n : nat) (tr : list event) : Prop := In (ECreate n) tr /\ ~ In (EDestroy n) tr.
Definition allowed (pre : list event) (e : event) : Prop :=
  match e with
  | ECreate n => ~ In (ECreate n) pre
  | EDestroy n | ESet n | EGet n => alive n pre
  | EClose f => (closed f pre < opened f pre)%nat
  | EOpen _ | EDelete _ => True
  end.
Definition well_behaved (tr : list event) : Prop := forall pre e post, tr = pre ++ e :: post -> allowed pre e.

(** Nothing is left: every interface was destroyed and every library closed as often as opened. *)
Definition released (tr : list event) : Prop := (forall n, ~ alive n tr) /\ forall f, opened f tr = closed f tr.

Lemma opened_app f a b : opened f (a ++ b) = (opened f a + opened f b)%nat.
Proof. unfold opened. rewrite filter_app, app_length. reflexivity. Qed.
Lemma closed_app f a b : closed f (a ++ b) = (closed f a + closed f b)%nat.
Proof. unfold closed. rewrite filter_app, app_length. reflexivity. Qed.

Lemma wb_nil : well_behaved [].
Proof. intros pre e post E. destruct pre; discriminate. Qed.

Lemma wb_snoc tr e : well_behaved tr -> allowed tr e -> well_behaved (tr ++ [e]).
Proof.
  intros W A pre e' post E. destruct (@exists_last _ (e' :: post)) as (l & x & El); [discriminate|].
  rewrite El, app_assoc in E. apply app_inj_tail in E as [E <-].
  destruct l as [|y l].
  - cbn in El. injection El as <- ->. rewrite app_nil_r in E. now subst.
  - cbn in El. injection El as <- ->. eapply W. exact E.
Qed.

Lemma wb_app tr l : well_behaved tr -> (forall pre e post, l = pre ++ e :: post -> allowed (tr ++ pre) e) -> well_behaved (tr ++ l).
Proof.
  revert tr. induction l as [|e l IH]; intros tr W A; [now rewrite app_nil_r|].
  replace (tr ++ e :: l) with ((tr ++ [e]) ++ l) by (rewrite <- app_assoc; reflexivity).
  apply IH.
  - apply wb_snoc; [exact W|]. specialize (A [] e l eq_refl). now rewrite app_nil_r in A.
  - intros pre e' post ->. rewrite <- app_assoc. apply (A (e :: pre) e' post). reflexivity.
Qed.

Ltac sc := cbn [stopped iface fname handle device pool dead next trace emit start pool_destroy].

Section Lib.
Variable libs : string -> option lib.

(** ** Running *)
Lemma step_stopped s c s' r : step libs s c = Ok (s', r) ->
  stopped s' = match c with Start => false | Stop => true | _ => stopped s end.
Proof.
  destruct c; cbn [step]; intros E; try (injection E as <- <-; reflexivity).
  - injection E as E. unfold initialization in E. destruct (libs (fname s)) as [l|]; [|injection E as <- <-; reflexivity].
    destruct (negb (l_create l)); [injection E as <- <-; reflexivity|].
    destruct (l_device l); [destruct (registered _ _)|]; injection E as <- <-; reflexivity.
  - unfold oneIteration in E. destruct (stopped s) eqn:S; [injection E as <- <-; assumption|].
    destruct (iface s); [|discriminate]. destruct (existsb _ _); [discriminate|].
    destruct e as [x|]; [destruct (x_where x)|]; injection E as <- <-; exact S.
  - injection E as <- <-. unfold pythonEntity. destruct (registered _ _); reflexivity.
  - unfold cleanUp in E. destruct (String.eqb (device s) ""); [|destruct (registered _ _); [|injection E as <- <-; reflexivity]].
    all: cbn [handle iface pool_destroy] in E; destruct (handle s) as [f|]; [|injection E as <- <-; reflexivity];
      destruct (iface s); [|injection E as <- <-; reflexivity]; destruct (libs f) as [l|]; [|injection E as <- <-; reflexivity];
      destruct (negb _); [injection E as <- <-; reflexivity|]; destruct (existsb _ _); [discriminate|]; injection E as <- <-; reflexivity.
Qed.

Lemma run_snoc h c s s' : run libs (h ++ [c]) s = Ok s' <-> exists s1 r, run libs h s = Ok s1 /\ step libs s1 c = Ok (s', r).
Proof.
  unfold run. revert s. induction h as [|x h IH]; intros s; cbn [app ofold].
  - split.
    + intros E. destruct (step libs s c) as [[s1 r]| |] eqn:K; [|discriminate..]. cbn in E. injection E as <-. eauto.
    + intros (s1 & r & E & K). injection E as <-. rewrite K. reflexivity.
  - destruct (step libs s x) as [[s2 r2]| |]; cbn [bind fst].
    + apply IH.
    + split; [discriminate|intros (? & ? & ? & _); discriminate].
    + split; [discriminate|intros (? & ? & ? & _); discriminate].
Qed.

Lemma run_ind (P : list cmd -> st -> Prop) : P [] start ->
  (forall h s c s' r, run libs h start = Ok s -> P h s -> step libs s c = Ok (s', r) -> P (h ++ [c]) s') ->
  forall h s, run libs h start = Ok s -> P h s.
Proof.
  intros H0 HS. induction h as [|c h IH] using rev_ind; intros s E.
  - injection E as <-. exact H0.
  - apply run_snoc in E as (s1 & r & E & K). eapply HS; eauto.
Qed.

Theorem loader_running h s : run libs h start = Ok s -> stopped s = negb (running h).
Proof.
  revert h s. apply (run_ind (fun h s => stopped s = negb (running h))); [reflexivity|].
  intros h s c s' r _ IH E. rewrite (step_stopped _ _ _ _ E). unfold running in *. rewrite fold_left_app. cbn [fold_left].
  destruct c; try reflexivity; exact IH.
Qed.

(** The library and the device are those named last. *)
Theorem loader_names h s : run libs h start = Ok s ->
  fname s = fold_left (fun f c => match c with SetName g => g | _ => f end) h "" /\
  device s = fold_left (fun d c => match c with LoadDevice n _ => n | _ => d end) h "".
Proof.
  revert h s. apply (run_ind (fun h s => fname s = fold_left (fun f c => match c with SetName g => g | _ => f end) h "" /\
    device s = fold_left (fun d c => match c with LoadDevice n _ => n | _ => d end) h "")); [split; reflexivity|].
  intros h s c s' r _ (A & B) E. rewrite !fold_left_app. cbn [fold_left]. rewrite <- A, <- B. clear A B.
  destruct c; cbn [step] in E; try (injection E as <- <-; split; reflexivity).
  - injection E as E. unfold initialization in E. destruct (libs (fname s)) as [l|]; [|injection E as <- <-; split; reflexivity].
    destruct (negb (l_create l)); [injection E as <- <-; split; reflexivity|].
    destruct (l_device l); [destruct (registered _ _)|]; injection E as <- <-; split; reflexivity.
  - unfold oneIteration in E. destruct (stopped s); [injection E as <- <-; split; reflexivity|].
    destruct (iface s); [|discriminate]. destruct (existsb _ _); [discriminate|].
    destruct e as [x|]; [destruct (x_where x)|]; injection E as <- <-; split; reflexivity.
  - injection E as <- <-. unfold pythonEntity. destruct (registered _ _); split; reflexivity.
  - unfold cleanUp in E. destruct (String.eqb (device s) ""); [|destruct (registered _ _); [|injection E as <- <-; split; reflexivity]].
    all: cbn [handle iface pool_destroy] in E; destruct (handle s) as [f|]; [|injection E as <- <-; split; reflexivity];
      destruct (iface s); [|injection E as <- <-; split; reflexivity]; destruct (libs f) as [l|]; [|injection E as <- <-; split; reflexivity];
      destruct (negb _); [injection E as <- <-; split; reflexivity|]; destruct (existsb _ _); [discriminate|]; injection E as <- <-; split; reflexivity.
Qed.

(** ** Traces *)
Record inv (s : st) : Prop := {
  i_wb : well_behaved (trace s);
  i_iface : forall n, iface s = Some n -> alive n (trace s);
  i_next : forall n, In (ECreate n) (trace s) -> (n < next s)%nat;
  i_handle : forall f, (closed f (trace s) + match handle s with Some g => if String.eqb g f then 1 else 0 | None => 0 end <= opened f (trace s))%nat
}.

Lemma inv_same s s' : trace s' = trace s -> iface s' = iface s -> next s' = next s -> handle s' = handle s -> inv s -> inv s'.
Proof. intros A B C D [I1 I2 I3 I4]. constructor; rewrite ?A, ?B, ?C, ?D; assumption. Qed.

Lemma alive_app n tr l : alive n tr -> ~ In (EDestroy n) l -> alive n (tr ++ l).
Proof. intros [A B] C. split; [apply in_or_app; auto|]. intros K. apply in_app_or in K as [K|K]; contradiction. Qed.

Lemma in_deletes x (p : list (string * option nat)) : In x (map (fun x => EDelete (fst x)) p) -> exists n, x = EDelete n.
Proof. intros K. apply in_map_iff in K as (y & <- & _). eauto. Qed.

Lemma deletes_count f (p : list (string * option nat)) :
  opened f (map (fun x => EDelete (fst x)) p) = 0%nat /\ closed f (map (fun x => EDelete (fst x)) p) = 0%nat.
Proof. induction p as [|x p [A B]]; [split; reflexivity|]. cbn [map]. unfold opened, closed in *. cbn [filter]. split; assumption. Qed.

Lemma inv_pool s : inv s -> inv (pool_destroy s).
Proof.
  intros [I1 I2 I3 I4]. unfold pool_destroy. constructor; sc.
  - apply wb_app; [exact I1|]. intros pre e post K.
    assert (X : In e (map (fun x => EDelete (fst x)) (pool s))) by (rewrite K; apply in_or_app; right; now left).
    apply in_deletes in X as [n ->]. exact I.
  - intros n E. apply alive_app; [apply I2, E|]. intros K. apply in_deletes in K as [? K]. discriminate.
  - intros n K. apply in_app_or in K as [K|K]; [now apply I3|]. apply in_deletes in K as [? K]. discriminate.
  - intros f. rewrite opened_app, closed_app. destruct (deletes_count f (pool s)) as [-> ->]. specialize (I4 f). lia.
Qed.

Lemma inv_step s c s' r : inv s -> step libs s c = Ok (s', r) -> inv s'.
Proof.
  intros HI E. destruct c; cbn [step] in E.
  - injection E as <- _. revert HI. apply inv_same; reflexivity.
  - injection E as E. unfold initialization in E. destruct (libs (fname s)) as [l|].
    2:{ injection E as <- _. destruct HI as [I1 I2 I3 I4]. constructor; sc; try assumption.
        intros f. specialize (I4 f). destruct (handle s); lia. }
    assert (HO : inv (St (stopped s) (iface s) (fname s) (Some (fname s)) (device s) (pool s) (dead s) (next s) (trace s ++ [EOpen (fname s)]))).
    { destruct HI as [I1 I2 I3 I4]. constructor; sc.
      - apply wb_snoc; [exact I1|exact I].
      - intros n K. apply alive_app; [now apply I2|]. intros [K'|[]]; discriminate.
      - intros n K. apply in_app_or in K as [K|[K|[]]]; [now apply I3|discriminate].
      - intros f. rewrite opened_app, closed_app. unfold opened at 2, closed at 2. cbn [filter].
        specialize (I4 f). destruct (String.eqb (fname s) f); cbn [length]; lia. }
    cbv zeta in E. destruct (negb (l_create l)); [injection E as <- _; exact HO|].
    assert (HC : forall p, inv (St (stopped s) (Some (next s)) (fname s) (Some (fname s)) (device s) p (dead s) (S (next s)) ((trace s ++ [EOpen (fname s)]) ++ [ECreate (next s)]))).
    { intros p. destruct HO as [I1 I2 I3 I4]. cbn [stopped iface fname handle device pool dead next trace emit] in I1, I2, I3, I4. constructor; sc.
      - apply wb_snoc; [exact I1|]. cbn. intros K. apply I3 in K. lia.
      - intros n K. injection K as <-. split; [apply in_or_app; right; now left|].
        intros K. apply in_app_or in K as [K|[K|[]]]; [|discriminate].
        apply in_split in K as (a & b & K).
        assert (X : alive (next s) a) by exact (I1 a _ b K). destruct X as [X _].
        assert (In (ECreate (next s)) (trace s ++ [EOpen (fname s)])) as Y by (rewrite K; apply in_or_app; now left).
        apply I3 in Y. lia.
      - intros n K. apply in_app_or in K as [K|[K|[]]]; [apply I3 in K; lia|]. injection K as <-. lia.
      - intros f. rewrite opened_app, (closed_app f (trace s ++ _)). specialize (I4 f).
        change (opened f [ECreate (next s)]) with 0%nat. change (closed f [ECreate (next s)]) with 0%nat. lia. }
    destruct (l_device l) as [d|]; [destruct (registered _ _)|]; injection E as <- _; [exact HO|apply HC..].
  - injection E as <- _. revert HI. apply inv_same; reflexivity.
  - injection E as <- _. revert HI. apply inv_same; reflexivity.
  - unfold oneIteration in E. destruct (stopped s); [injection E as <- _; exact HI|].
    destruct (iface s) as [n|] eqn:Ei; [|discriminate]. destruct (existsb _ _); [discriminate|].
    assert (A : alive n (trace s)) by (apply (i_iface _ HI), Ei).
    assert (H1 : inv (emit [ESet n] s)).
    { destruct HI as [I1 I2 I3 I4]. constructor; sc.
      - apply wb_snoc; [exact I1|exact A].
      - intros k K. apply alive_app; [now apply I2|]. intros [K'|[]]; discriminate.
      - intros k K. apply in_app_or in K as [K|[K|[]]]; [now apply I3|discriminate].
      - intros f. rewrite opened_app, closed_app. specialize (I4 f).
        change (opened f [ESet n]) with 0%nat. change (closed f [ESet n]) with 0%nat. lia. }
    assert (H2 : inv (emit [ESet n; EGet n] s)).
    { destruct H1 as [I1 I2 I3 I4]. cbn [stopped iface fname handle device pool dead next trace emit] in I1, I2, I3, I4. constructor; sc;
        replace (trace s ++ [ESet n; EGet n]) with ((trace s ++ [ESet n]) ++ [EGet n]) by (rewrite <- app_assoc; reflexivity).
      - apply wb_snoc; [exact I1|]. apply alive_app; [exact A|]. intros [K'|[]]; discriminate.
      - intros k K. apply alive_app; [now apply I2|]. intros [K'|[]]; discriminate.
      - intros k K. apply in_app_or in K as [K|[K|[]]]; [now apply I3|discriminate].
      - intros f. rewrite (opened_app f (trace s ++ _)), (closed_app f (trace s ++ _)). specialize (I4 f).
        change (opened f [EGet n]) with 0%nat. change (closed f [EGet n]) with 0%nat. lia. }
    destruct e as [x|]; [destruct (x_where x)|]; injection E as <- _; assumption.
  - injection E as <- _. revert HI. apply inv_same; reflexivity.
  - injection E as <- _. unfold pythonEntity. destruct (registered _ _); [exact HI|]. revert HI. apply inv_same; reflexivity.
  - assert (G : forall s0, inv s0 -> match handle (pool_destroy s0), iface (pool_destroy s0) with
        | Some f, Some n => match libs f with
          | Some l => if negb (l_destroy l) then Ok (pool_destroy s0, RUnit)
              else if existsb (Nat.eqb n) (dead (pool_destroy s0)) then UB
              else Ok (St (stopped (pool_destroy s0)) None (fname (pool_destroy s0)) None (device (pool_destroy s0)) (pool (pool_destroy s0)) (dead (pool_destroy s0)) (next (pool_destroy s0))
                        (trace (pool_destroy s0) ++ [EDestroy n; EClose f]), RUnit)
          | None => Ok (pool_destroy s0, RUnit) end
        | _, _ => Ok (pool_destroy s0, RUnit) end = Ok (s', r) -> inv s').
    { intros s0 H0 K. apply inv_pool in H0. set (s1 := pool_destroy s0) in *. clearbody s1.
      destruct (handle s1) as [f|] eqn:Eh; [|injection K as <- _; exact H0].
      destruct (iface s1) as [n|] eqn:Ei; [|injection K as <- _; exact H0].
      destruct (libs f) as [l|]; [|injection K as <- _; exact H0].
      destruct (negb _); [injection K as <- _; exact H0|]. destruct (existsb _ _); [discriminate|].
      injection K as <- _. destruct H0 as [I1 I2 I3 I4]. constructor; sc;
        replace (trace s1 ++ [EDestroy n; EClose f]) with ((trace s1 ++ [EDestroy n]) ++ [EClose f]) by (rewrite <- app_assoc; reflexivity).
      - apply wb_snoc; [apply wb_snoc; [exact I1|apply I2, Ei]|]. cbn. rewrite opened_app, closed_app.
        specialize (I4 f). rewrite Eh, String.eqb_refl in I4.
        change (opened f [EDestroy n]) with 0%nat. change (closed f [EDestroy n]) with 0%nat. lia.
      - discriminate.
      - intros k K. rewrite <- app_assoc in K. apply in_app_or in K as [K|[K|[K|[]]]]; [now apply I3|discriminate..].
      - intros g. rewrite !(opened_app g), !(closed_app g). specialize (I4 g). rewrite Eh in I4.
        change (opened g [EDestroy n]) with 0%nat. change (closed g [EDestroy n]) with 0%nat. change (opened g [EClose f]) with 0%nat.
        unfold closed at 2. cbn [filter]. destruct (String.eqb f g); cbn [length]; lia. }
    unfold cleanUp in E. destruct (String.eqb (device s) ""); [exact (G s HI E)|].
    destruct (registered (pool s) (device s)); [|injection E as <- _; exact HI].
    refine (G _ _ E). revert HI. apply inv_same; reflexivity.
Qed.

Lemma inv_run h s : run libs h start = Ok s -> inv s.
Proof.
  revert h s. apply (run_ind (fun _ s => inv s)).
  - constructor; sc; try discriminate; try contradiction. { apply wb_nil. }
    intros f. cbn. lia.
  - intros h s c s' r _ HI E. exact (inv_step _ _ _ _ HI E).
Qed.

(** In every history of calls no interface is used or destroyed before its creation or after its
    destruction, none is destroyed twice, and no library is closed more often than opened. *)
Theorem loader_well_behaved h s : run libs h start = Ok s -> well_behaved (trace s).
Proof. intros E. exact (i_wb _ (inv_run _ _ E)). Qed.

(** [initialization] answers true exactly when it created a new interface in this call, which the
    loader then uses; otherwise none is created and the previous one stays.  It succeeds exactly when
    the named library opens, exports the create function and its device has a free name. *)
Theorem loader_initialization h s s' r : run libs h start = Ok s -> step libs s Init = Ok (s', r) ->
  (if match r with RBool true => true | _ => false end
   then exists n, ~ In (ECreate n) (trace s) /\ trace s' = trace s ++ [EOpen (fname s); ECreate n] /\
          iface s' = Some n /\ alive n (trace s')
   else iface s' = iface s /\ pool s' = pool s /\ forall n, In (ECreate n) (trace s') -> In (ECreate n) (trace s)) /\
  (r = RBool true <-> exists l, libs (fname s) = Some l /\ l_create l = true /\
     forall d, l_device l = Some d -> registered (pool s) d = false) /\
  (r = RBool false <-> match libs (fname s) with Some l => l_create l = false | None => True end).
Proof.
  intros E K. pose proof (inv_run _ _ E) as HI. pose proof (inv_step _ _ _ _ HI K) as HI'.
  cbn [step] in K. injection K as K. unfold initialization in K.
  assert (Q : forall n, In (ECreate n) (trace s ++ [EOpen (fname s)]) -> In (ECreate n) (trace s)).
  { intros n X. apply in_app_or in X as [X|[X|[]]]; [exact X|discriminate]. }
  destruct (libs (fname s)) as [l|] eqn:El.
  2:{ injection K as <- <-. cbn [iface pool trace]. repeat split; auto; [discriminate|]. intros (l & X & _). discriminate. }
  cbv zeta in K. cbn [pool next trace stopped iface fname handle device dead] in K.
  destruct (l_create l) eqn:Ec; cbn [negb] in K.
  2:{ injection K as <- <-. cbn [iface pool trace]. repeat split; auto; [discriminate|].
      intros (l' & X & Y & _). injection X as <-. congruence. }
  assert (F : ~ In (ECreate (next s)) (trace s)) by (intros X; apply (i_next _ HI) in X; lia).
  assert (G : (r = RBool true /\ trace s' = (trace s ++ [EOpen (fname s)]) ++ [ECreate (next s)] /\ iface s' = Some (next s) /\
      forall d, l_device l = Some d -> registered (pool s) d = false) \/
     (exists c d, r = RExn c /\ l_device l = Some d /\ registered (pool s) d = true /\ trace s' = trace s ++ [EOpen (fname s)] /\
      iface s' = iface s /\ pool s' = pool s)).
  { destruct (l_device l) as [d|]; [destruct (registered (pool s) d) eqn:Er|]; injection K as <- <-.
    - right. do 2 eexists. repeat split. exact Er.
    - left. repeat split. intros d' X. injection X as <-. exact Er.
    - left. repeat split. discriminate. }
  destruct G as [(-> & T & I & D)|(c & d & -> & Ed & Er & T & I & P)].
  - split; [|split].
    + exists (next s). split; [exact F|]. split; [rewrite T, <- app_assoc; reflexivity|]. split; [exact I|].
      apply (i_iface _ HI'), I.
    + split; [|reflexivity]. intros _. exists l. auto.
    + split; discriminate.
  - split; [|split].
    + rewrite T. auto.
    + split; [discriminate|]. intros (l' & X & _ & Y). injection X as <-. apply Y in Ed. congruence.
    + split; discriminate.
Qed.

(** One iteration: nothing at all when the graph is stopped; otherwise the sensors are given to the
    live interface and then its control is asked, once each; the control is not asked when giving
    the sensors failed. *)
Theorem loader_iteration h s e s' r : run libs h start = Ok s -> step libs s (Iter e) = Ok (s', r) ->
  if running h then
    exists n, alive n (trace s) /\
      trace s' = trace s ++ match e with Some (Exn FSet _ _) => [ESet n] | _ => [ESet n; EGet n] end /\
      (r = RUnit <-> e = None)
  else s' = s /\ r = RUnit.
Proof.
  intros E K. pose proof (loader_running _ _ E) as R. pose proof (inv_run _ _ E) as HI. cbn [step] in K. unfold oneIteration in K.
  rewrite R in K. destruct (running h); cbn [negb] in K; [|injection K as <- <-; auto].
  destruct (iface s) as [n|] eqn:Ei; [|discriminate]. destruct (existsb _ _); [discriminate|].
  exists n. split; [apply (i_iface _ HI), Ei|].
  destruct e as [[[] c b]|]; cbn [x_where] in K; injection K as <- <-; cbn [trace emit]; split; try reflexivity; split; try discriminate; reflexivity.
Qed.

(** ** Release *)
(** Disciplined use: a library is loaded only when none is loaded, and no call raised. *)
Fixpoint disciplined (loaded : bool) (h : list cmd) (s : st) : Prop :=
  match h with
  | [] => True
  | c :: r =>
      match c with
      | Init => loaded = false
      | _ => True
      end /\
      match step libs s c with
      | Ok (s', RExn _) => False
      | Ok (s', x) =>
          disciplined (match c with Init => match x with RBool b => b | _ => loaded end | Clean => false | _ => loaded end) r s'
      | _ => False
      end
  end.
(** Every library that can be opened exports the two functions. *)
Definition complete_libs : Prop := forall f l, libs f = Some l -> l_create l = true /\ l_destroy l = true.

Record rel (loaded : bool) (s : st) : Prop := {
  r_iface : forall n, alive n (trace s) -> iface s = Some n;
  r_handle : forall f, opened f (trace s) = (closed f (trace s) + match handle s with Some g => if String.eqb g f then 1 else 0 | None => 0 end)%nat;
  r_both : (iface s = None <-> handle s = None);
  r_loaded : loaded = false -> handle s = None;
  r_lib : forall f, handle s = Some f -> exists l, libs f = Some l
}.

Lemma alive_back n tr l : ~ In (ECreate n) l -> alive n (tr ++ l) -> alive n tr.
Proof.
  intros C [A B]. split; [apply in_app_or in A as [A|A]; [exact A|contradiction]|]. intros K. apply B, in_or_app. auto.
Qed.

Lemma rel_pool b s : rel b s -> rel b (pool_destroy s).
Proof.
  intros [R1 R2 R3 R4 R5]. constructor; sc; try assumption.
  - intros n A. apply R1. apply alive_back in A; [exact A|]. intros K. apply in_deletes in K as [? K]. discriminate.
  - intros f. rewrite opened_app, closed_app. destruct (deletes_count f (pool s)) as [-> ->]. specialize (R2 f). lia.
Qed.

Lemma rel_same b s s' : trace s' = trace s -> iface s' = iface s -> handle s' = handle s -> rel b s -> rel b s'.
Proof. intros A B C [R1 R2 R3 R4 R5]. constructor; rewrite ?A, ?B, ?C; assumption. Qed.

Lemma rel_step b s c s' r : complete_libs -> rel b s -> match c with Init => b = false | _ => True end -> step libs s c = Ok (s', r) ->
  (forall x, r <> RExn x) ->
  rel (match c with Init => match r with RBool b => b | _ => b end | Clean => false | _ => b end) s'.
Proof.
  intros CL HR HB E NX. destruct c; cbn [step] in E.
  - injection E as <- <-. revert HR. apply rel_same; reflexivity.
  - injection E as E. subst b. assert (Hh : handle s = None) by now apply (r_loaded _ _ HR).
    assert (Hi : iface s = None) by now apply (r_both _ _ HR).
    unfold initialization in E. destruct (libs (fname s)) as [l|] eqn:El.
    2:{ injection E as <- <-. revert HR. apply rel_same; try reflexivity. now rewrite Hh. }
    destruct (CL _ _ El) as [Cc Cd]. rewrite Cc in E. cbn [negb] in E. cbv zeta in E.
    assert (HC : forall p, rel true (St (stopped s) (Some (next s)) (fname s) (Some (fname s)) (device s) p (dead s) (S (next s)) ((trace s ++ [EOpen (fname s)]) ++ [ECreate (next s)]))).
    { intros p. destruct HR as [R1 R2 R3 R4 R5]. constructor; sc.
      - intros n A. destruct (Nat.eq_dec n (next s)) as [-> |N]; [reflexivity|exfalso].
        rewrite <- app_assoc in A. apply alive_back in A; [apply R1 in A; congruence|].
        intros [K|[K|[]]]; [discriminate|]. injection K as K. congruence.
      - intros f. rewrite !(opened_app f), !(closed_app f). specialize (R2 f). rewrite Hh in R2.
        change (opened f [ECreate (next s)]) with 0%nat. change (closed f [ECreate (next s)]) with 0%nat. change (closed f [EOpen (fname s)]) with 0%nat.
        unfold opened at 2. cbn [filter]. destruct (String.eqb (fname s) f); cbn [length]; lia.
      - split; discriminate.
      - discriminate.
      - intros f K. injection K as <-. eauto. }
    destruct (l_device l) as [d|]; [destruct (registered _ _)|]; injection E as <- <-; [now destruct (NX "ExceptionFactory")|apply HC..].
  - injection E as <- <-. revert HR. apply rel_same; reflexivity.
  - injection E as <- <-. revert HR. apply rel_same; reflexivity.
  - unfold oneIteration in E. destruct (stopped s); [injection E as <- <-; exact HR|].
    destruct (iface s) as [n|] eqn:Ei; [|discriminate]. destruct (existsb _ _); [discriminate|].
    assert (G : forall l, (forall x, In x l -> x = ESet n \/ x = EGet n) -> rel b (emit l s)).
    { intros l Hl. destruct HR as [R1 R2 R3 R4 R5]. constructor; sc; try assumption.
      - intros k A. apply R1. apply alive_back in A; [exact A|]. intros K. apply Hl in K as [K|K]; discriminate.
      - intros f. rewrite opened_app, closed_app. specialize (R2 f).
        assert (X : opened f l = 0%nat /\ closed f l = 0%nat); [|lia].
        clear -Hl. induction l as [|y l IH]; [split; reflexivity|].
        destruct IH as [A B]; [intros x Hx; apply Hl; now right|]. unfold opened, closed in *. cbn [filter].
        destruct (Hl y) as [-> | ->]; [now left| |]; split; assumption. }
    destruct e as [x|]; [destruct (x_where x)|]; injection E as <- <-; apply G; cbn; intuition.
  - injection E as <- <-. revert HR. apply rel_same; reflexivity.
  - injection E as <- <-. unfold pythonEntity. destruct (registered _ _); [exact HR|]. revert HR. apply rel_same; reflexivity.
  - assert (G : forall s0, rel b s0 -> match handle (pool_destroy s0), iface (pool_destroy s0) with
        | Some f, Some n => match libs f with
          | Some l => if negb (l_destroy l) then Ok (pool_destroy s0, RUnit)
              else if existsb (Nat.eqb n) (dead (pool_destroy s0)) then UB
              else Ok (St (stopped (pool_destroy s0)) None (fname (pool_destroy s0)) None (device (pool_destroy s0)) (pool (pool_destroy s0)) (dead (pool_destroy s0)) (next (pool_destroy s0))
                        (trace (pool_destroy s0) ++ [EDestroy n; EClose f]), RUnit)
          | None => Ok (pool_destroy s0, RUnit) end
        | _, _ => Ok (pool_destroy s0, RUnit) end = Ok (s', r) -> rel false s').
    { intros s0 H0 K. apply rel_pool in H0. set (s1 := pool_destroy s0) in *. clearbody s1. pose proof H0 as [R1 R2 R3 R4 R5].
      destruct (handle s1) as [f|] eqn:Eh.
      2:{ injection K as <- _. constructor; rewrite ?Eh; try assumption; [intros; exact eq_refl]. }
      destruct (iface s1) as [n|] eqn:Ei; [|specialize (proj1 R3 eq_refl) as R3'; discriminate R3'].
      destruct (R5 f eq_refl) as [l El]. rewrite El in K. destruct (CL _ _ El) as [_ Cd]. rewrite Cd in K. cbn [negb] in K.
      destruct (existsb _ _); [discriminate|]. injection K as <- _. constructor; sc; try (intros; discriminate).
      - intros k A. exfalso. destruct (Nat.eq_dec k n) as [-> |N].
        + destruct A as [_ A]. apply A, in_or_app. right. now left.
        + apply alive_back in A; [|intros [K|[K|[]]]; discriminate]. apply R1 in A. congruence.
      - intros g. replace (trace s1 ++ [EDestroy n; EClose f]) with ((trace s1 ++ [EDestroy n]) ++ [EClose f]) by (rewrite <- app_assoc; reflexivity).
        rewrite !(opened_app g), !(closed_app g). specialize (R2 g). 
        change (opened g [EDestroy n]) with 0%nat. change (closed g [EDestroy n]) with 0%nat. change (opened g [EClose f]) with 0%nat.
        unfold closed at 2. cbn [filter]. destruct (String.eqb f g); cbn [length]; lia.
      - split; reflexivity.
      - reflexivity. }
    unfold cleanUp in E. destruct (String.eqb (device s) ""); [exact (G s HR E)|].
    destruct (registered (pool s) (device s)); [|injection E as <- <-; now destruct (NX "ExceptionFactory")].
    refine (G _ _ E). revert HR. apply rel_same; reflexivity.
Qed.

Lemma rel_run h : forall b s s', complete_libs -> rel b s -> disciplined b h s -> run libs h s = Ok s' -> exists b', rel b' s'.
Proof.
  induction h as [|c h IH]; intros b s s' CL HR D E.
  - injection E as <-. eauto.
  - cbn [disciplined] in D. destruct D as [Dc D]. unfold run in E. cbn [ofold] in E.
    destruct (step libs s c) as [[s1 r]| |] eqn:K; [|contradiction..]. cbn [bind fst] in E.
    destruct r as [|x|x]; [| |contradiction]; (eapply IH; [exact CL| |exact D|exact E]);
      apply (rel_step b s c s1 _ CL HR Dc K); discriminate.
Qed.

Lemma rel_start : rel false start.
Proof.
  constructor; sc; try discriminate; try reflexivity.
  - intros n [[] _].
  - split; reflexivity.
Qed.

(** After a disciplined history and a clean up that did not raise, nothing is left. *)
Theorem loader_released h s s' r : complete_libs -> disciplined false h start -> run libs h start = Ok s ->
  step libs s Clean = Ok (s', r) -> (forall x, r <> RExn x) -> released (trace s') /\ pool s' = [].
Proof.
  intros CL D E K NX. destruct (rel_run _ _ _ _ CL rel_start D E) as [b HR].
  pose proof (rel_step b s Clean s' r CL HR I K NX) as [R1 R2 R3 R4 R5]. specialize (R4 eq_refl).
  split; [split|].
  - intros n A. apply R1 in A. rewrite (proj2 R3 R4) in A. discriminate.
  - intros f. rewrite R2, R4. lia.
  - cbn [step] in K. unfold cleanUp in K.
    destruct (String.eqb (device s) ""); [|destruct (registered _ _); [|injection K as _ <-; now destruct (NX "ExceptionFactory")]].
    all: cbn [handle iface pool_destroy] in K; destruct (handle s) as [f|]; [|injection K as <- <-; reflexivity];
      destruct (iface s); [|injection K as <- <-; reflexivity]; destruct (libs f) as [l|]; [|injection K as <- <-; reflexivity];
      destruct (negb _); [injection K as <- <-; reflexivity|]; destruct (existsb _ _); [discriminate|]; injection K as <- <-; reflexivity.
Qed.

(** ** The device is not deleted twice *)
(** Every library makes a device of this name or none; whoever cleans up has given the name of the
    device to the loader before. *)
Definition device_is (d : string) : Prop := d <> "" /\ forall f l x, libs f = Some l -> l_device l = Some x -> x = d.
Definition loads_first (d : string) (h : list cmd) : Prop :=
  (forall name ok, In (LoadDevice name ok) h -> name = d) /\
  (forall h1 h2, h = h1 ++ Clean :: h2 -> exists ok, In (LoadDevice d ok) h1).

Record own (d : string) (s : st) : Prop := {
  o_pool : forall x n, In (x, Some n) (pool s) -> x = d;
  o_dead : dead s = []
}.

Lemma own_run d h s : device_is d -> loads_first d h -> run libs h start = Ok s ->
  own d s /\ (device s = d \/ device s = "" /\ forall ok, ~ In (LoadDevice d ok) h).
Proof.
  intros [ND HD] HL E. revert h s E HL.
  apply (run_ind (fun h s => loads_first d h -> own d s /\ (device s = d \/ device s = "" /\ forall ok, ~ In (LoadDevice d ok) h))).
  { intros _. split; [constructor; sc; [contradiction|reflexivity]|]. right. split; [reflexivity|]. intros ok []. }
  intros h s c s' r Er IH E [L1 L2].
  assert (LF : loads_first d h).
  { split; [intros name ok K; apply (L1 name ok), in_or_app; now left|].
    intros h1 h2 ->. apply (L2 h1 (h2 ++ [c])). now rewrite <- app_assoc. }
  destruct (IH LF) as [O D]. clear IH. destruct O as [O1 O2].
  assert (DD : (forall ok, c <> LoadDevice d ok) -> device s' = device s ->
    device s' = d \/ device s' = "" /\ forall ok, ~ In (LoadDevice d ok) (h ++ [c])).
  { intros NC ->. destruct D as [D|[D K]]; [now left|]. right. split; [exact D|].
    intros ok X. apply in_app_or in X as [X|[X|[]]]; [exact (K ok X)|exact (NC ok X)]. }
  destruct c; cbn [step] in E.
  - injection E as <- _. split; [constructor; assumption|]. apply DD; [discriminate|reflexivity].
  - injection E as E. unfold initialization in E. destruct (libs (fname s)) as [l|] eqn:El.
    2:{ injection E as <- _. split; [constructor; assumption|]. apply DD; [discriminate|reflexivity]. }
    cbv zeta in E. destruct (negb (l_create l)); [injection E as <- _; split; [constructor; assumption|]; apply DD; [discriminate|reflexivity]|].
    destruct (l_device l) as [x|] eqn:Ed; [destruct (registered _ _)|]; injection E as <- _.
    + split; [constructor; assumption|]. apply DD; [discriminate|reflexivity].
    + split; [|apply DD; [discriminate|reflexivity]]. constructor; sc; [|exact O2].
      intros y n [K|K]; [|now apply (O1 _ n)]. injection K as <- _. now apply (HD (fname s) l).
    + split; [|apply DD; [discriminate|reflexivity]]. constructor; assumption.
  - injection E as <- _. split; [constructor; assumption|]. apply DD; [discriminate|reflexivity].
  - injection E as <- _. split; [constructor; assumption|]. apply DD; [discriminate|reflexivity].
  - unfold oneIteration in E. destruct (stopped s); [injection E as <- _; split; [constructor; assumption|]; apply DD; [discriminate|reflexivity]|].
    destruct (iface s) as [n|]; [|discriminate]. destruct (existsb _ _); [discriminate|].
    destruct e as [x|]; [destruct (x_where x)|]; injection E as <- _; (split; [constructor; assumption|]; apply DD; [discriminate|reflexivity]).
  - injection E as <- _. assert (name = d) as -> by (apply (L1 name ok), in_or_app; right; now left).
    split; [|now left]. unfold loadDeviceInPython. constructor; sc; [|exact O2]. intros x n.
    destruct (ok && negb (registered (pool s) d))%bool; [intros [K|K]; [discriminate|now apply (O1 _ n)]|now apply O1].
  - injection E as <- _. unfold pythonEntity in *. destruct (registered _ _).
    + split; [constructor; assumption|]. apply DD; [discriminate|reflexivity].
    + split; [|apply DD; [discriminate|reflexivity]]. constructor; sc; [|exact O2]. intros x n [K|K]; [discriminate|now apply (O1 _ n)].
  - destruct (L2 h [] eq_refl) as [ok K]. assert (Ed : device s = d) by (destruct D as [D|[_ D]]; [exact D|now destruct (D ok)]).
    unfold cleanUp in E. rewrite Ed in E. destruct (String.eqb d "") eqn:Z; [apply String.eqb_eq in Z; contradiction|].
    destruct (registered (pool s) d).
    2:{ injection E as <- _. split; [constructor; assumption|]. apply DD; [discriminate|reflexivity]. }
    set (p := filter _ _) in E.
    assert (FP : flat_map (fun x : string * option nat => match snd x with Some n => [n] | None => [] end) p = []).
    { destruct (flat_map _ p) as [|k t] eqn:F; [reflexivity|exfalso].
      assert (X : In k (flat_map (fun x : string * option nat => match snd x with Some n => [n] | None => [] end) p)) by (rewrite F; now left).
      apply in_flat_map in X as ([y o] & Xp & Xk). cbn in Xk. destruct o as [n|]; [|contradiction].
      unfold p in Xp. apply filter_In in Xp as [Xp Xn]. apply O1 in Xp. cbn in Xn. subst y. rewrite String.eqb_refl in Xn. discriminate. }
    unfold pool_destroy in E. cbn [stopped iface fname handle device pool dead next trace] in E. rewrite FP, O2 in E. cbn [app] in E.
    destruct (handle s) as [f|]; [|injection E as <- _; split; [constructor; sc; [contradiction|reflexivity]|]; now left].
    destruct (iface s) as [n|]; [|injection E as <- _; split; [constructor; sc; [contradiction|reflexivity]|]; now left].
    destruct (libs f) as [l|]; [|injection E as <- _; split; [constructor; sc; [contradiction|reflexivity]|]; now left].
    destruct (negb _); [injection E as <- _; split; [constructor; sc; [contradiction|reflexivity]|]; now left|].
    cbn [existsb] in E. injection E as <- _. split; [constructor; sc; [contradiction|reflexivity]|]. now left.
Qed.

(** When the device was given to the loader, cleaning up never deletes anything twice: neither the
    clean up nor the destructor is undefined. *)
Theorem loader_no_double_deletion d h s : device_is d -> loads_first d (h ++ [Clean]) -> run libs h start = Ok s ->
  cleanUp libs s <> UB /\ destructor libs s <> UB.
Proof.
  intros HD HL E.
  assert (LF : loads_first d h).
  { destruct HL as [L1 L2]. split; [intros name ok K; apply (L1 name ok), in_or_app; now left|].
    intros h1 h2 ->. apply (L2 h1 (h2 ++ [Clean])). now rewrite <- app_assoc. }
  destruct (own_run d h s HD LF E) as [[O1 O2] D].
  assert (Ed : device s = d).
  { destruct HL as [_ L2]. destruct (L2 h [] eq_refl) as [ok K]. destruct D as [D|[_ D]]; [exact D|now destruct (D ok)]. }
  assert (G : cleanUp libs s <> UB).
  { unfold cleanUp. rewrite Ed. destruct HD as [ND _]. destruct (String.eqb d "") eqn:Z; [apply String.eqb_eq in Z; contradiction|].
    destruct (registered (pool s) d); [|discriminate]. set (p := filter _ _).
    assert (FP : flat_map (fun x : string * option nat => match snd x with Some n => [n] | None => [] end) p = []).
    { destruct (flat_map _ p) as [|k t] eqn:F; [reflexivity|exfalso].
      assert (X : In k (flat_map (fun x : string * option nat => match snd x with Some n => [n] | None => [] end) p)) by (rewrite F; now left).
      apply in_flat_map in X as ([y o] & Xp & Xk). cbn in Xk. destruct o as [n|]; [|contradiction].
      unfold p in Xp. apply filter_In in Xp as [Xp Xn]. apply O1 in Xp. cbn in Xn. subst y. rewrite String.eqb_refl in Xn. discriminate. }
    unfold pool_destroy. cbn [stopped iface fname handle device pool dead next trace]. rewrite FP, O2. cbn [app existsb].
    destruct (handle s) as [f|]; [|discriminate]. destruct (iface s); [|discriminate]. destruct (libs f); [|discriminate].
    destruct (negb _); discriminate. }
  split; [exact G|]. unfold destructor. destruct (cleanUp libs s) as [[s' r]| |]; [|discriminate|congruence]. cbn. destruct r; discriminate.
Qed.

(** ** Clean up does not forget the device: cleaning up twice, or cleaning up and then destroying the
    loader, raises in the second clean up; in the destructor that ends the program. *)
Theorem loader_second_cleanup_refuted s s' : device s <> "" -> cleanUp libs s = Ok (s', RUnit) ->
  cleanUp libs s' = Ok (s', RExn "ExceptionFactory") /\ destructor libs s' = Throw "std::terminate".
Proof.
  intros ND E.
  assert (P : pool s' = [] /\ device s' = device s).
  { unfold cleanUp in E. destruct (String.eqb (device s) "") eqn:Z; [apply String.eqb_eq in Z; contradiction|].
    destruct (registered _ _); [|discriminate].
    cbn [handle iface pool_destroy] in E; destruct (handle s) as [f|]; [|injection E as <-; split; reflexivity];
      destruct (iface s); [|injection E as <-; split; reflexivity]; destruct (libs f) as [l|]; [|injection E as <-; split; reflexivity];
      destruct (negb _); [injection E as <-; split; reflexivity|]; destruct (existsb _ _); [discriminate|]; injection E as <-; split; reflexivity. }
  destruct P as [P1 P2].
  assert (G : cleanUp libs s' = Ok (s', RExn "ExceptionFactory")).
  { unfold cleanUp. rewrite P1, P2. destruct (String.eqb (device s) "") eqn:Z; [apply String.eqb_eq in Z; contradiction|]. reflexivity. }
  split; [exact G|]. unfold destructor. rewrite G. reflexivity.
Qed.
End Lib.

(** ** Findings *)
Definition one_lib (l : lib) (f : string) : option lib := if String.eqb f "robot.so" then Some l else None.
Definition good_lib := Lib true true (Some "device").

(** The normal life: everything is released. *)
Example loader_example :
  let h := [SetName "robot.so"; Init; LoadDevice "device" true; Start; Iter None; Stop; Iter None] in
  exists s s', run (one_lib good_lib) h start = Ok s /\ step (one_lib good_lib) s Clean = Ok (s', RUnit) /\
    disciplined (one_lib good_lib) false h start /\ complete_libs (one_lib good_lib) /\ device_is (one_lib good_lib) "device" /\
    loads_first "device" (h ++ [Clean]) /\
    trace s' = [EOpen "robot.so"; ECreate 0; ESet 0; EGet 0; EDestroy 0; EClose "robot.so"].
Proof.
  intros h.
  let r := eval vm_compute in (run (one_lib good_lib) h start) in match r with Ok ?s => exists s end.
  match goal with |- exists s', _ /\ step ?l ?s Clean = _ /\ _ =>
    let r := eval vm_compute in (step l s Clean) in match r with Ok (?s', _) => exists s' end end.
  split; [vm_compute; reflexivity|]. split; [vm_compute; reflexivity|]. split; [vm_compute; repeat split|].
  assert (G : forall f l, one_lib good_lib f = Some l -> l = good_lib).
  { intros f l. unfold one_lib. destruct (String.eqb f "robot.so"); [|discriminate]. intros K. now injection K. }
  split; [intros f l K; apply G in K as ->; split; reflexivity|].
  split; [split; [discriminate|]; intros f l x K X; apply G in K as ->; now injection X|].
  split; [|reflexivity]. split.
  - intros name ok K. cbn in K. repeat (destruct K as [K|K]; [first [discriminate K | now injection K]|]). contradiction.
  - intros h1 h2 K. exists true. do 8 (destruct h1 as [|? h1]; [discriminate K|]; cbn in K; injection K as <- K; try (right; right; now left)).
    all: try (destruct h1; discriminate).
Qed.

(** Without giving the device to the loader, its clean up deletes the device twice. *)
Theorem loader_double_deletion_refuted : exists s, run (one_lib good_lib) [SetName "robot.so"; Init] start = Ok s /\
  cleanUp (one_lib good_lib) s = UB.
Proof. eexists. split; reflexivity. Qed.

(** A library without the create function stays open. *)
Theorem loader_create_missing_refuted : exists s s', let e := one_lib (Lib false true None) in
  run e [SetName "robot.so"; Init] start = Ok s /\ step e s Clean = Ok (s', RUnit) /\ ~ released (trace s').
Proof.
  do 2 eexists. cbv zeta. split; [reflexivity|]. split; [reflexivity|]. intros [_ R]. specialize (R "robot.so"). discriminate.
Qed.

(** Initialising twice loses the first interface and one reference to the library. *)
Theorem loader_reinit_refuted : exists s s', let e := one_lib (Lib true true None) in
  run e [SetName "robot.so"; Init; Init] start = Ok s /\ step e s Clean = Ok (s', RUnit) /\
  alive 0 (trace s') /\ opened "robot.so" (trace s') = 2 /\ closed "robot.so" (trace s') = 1.
Proof.
  do 2 eexists. cbv zeta. split; [reflexivity|]. split; [reflexivity|].
  split; [|split; reflexivity]. split; [cbn; tauto|]. cbn. intros [K|[K|[K|[K|[K|[K|[]]]]]]]; discriminate.
Qed.

(** Starting before a library is loaded: the next iteration uses a null pointer. *)
Theorem loader_start_early_refuted libs : run libs [Start; Iter None] start = UB.
Proof. reflexivity. Qed.

(** The class of an exception derived from std::exception is lost. *)
Theorem loader_exception_sliced_refuted : exists s s' c, let e := one_lib good_lib in
  run e [SetName "robot.so"; Init; Start] start = Ok s /\
  step e s (Iter (Some (Exn FGet c true))) = Ok (s', RExn "std::exception") /\ c <> "std::exception".
Proof. do 2 eexists. exists "ExceptionSignal". cbv zeta. split; [reflexivity|]. split; [reflexivity|]. discriminate. Qed.

Print Assumptions loader_running.
Print Assumptions loader_well_behaved.
Print Assumptions loader_iteration.
Print Assumptions loader_released.
Print Assumptions loader_no_double_deletion.
Print Assumptions loader_second_cleanup_refuted.
Print Assumptions loader_double_deletion_refuted.
Print Assumptions loader_create_missing_refuted.
Print Assumptions loader_reinit_refuted.
Print Assumptions loader_start_early_refuted.
Print Assumptions loader_exception_sliced_refuted.
Print Assumptions loader_initialization.
Print Assumptions loader_names.
