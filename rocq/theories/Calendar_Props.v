(** C68: the calendar calls the registered functions. *)
From Coq Require Import String List Arith Lia ZArith Bool.
From Verif Require Import Base Calendar_Model.
Import ListNotations.

(** ** Specification *)
Definition key_dec (a b : ckey) : {a = b} + {a <> b}.
Proof. decide equality. apply Z.eq_dec. Defined.
Local Arguments key_dec : simpl never.
Definition event_dec (a b : event) : {a = b} + {a <> b}.
Proof. repeat decide equality. Defined.
Local Arguments event_dec : simpl never.
(** The events registered for a key, in order. *)
Definition registered (k : ckey) (h : list ccmd) : list event :=
  flat_map (fun c => match c with CReg k' e => if key_dec k' k then [e] else [] | _ => [] end) h.
Definition pings (h : list ccmd) : list nat := flat_map (fun c => match c with CPing f => [f] | _ => [] end) h.
(** The permanent events: those registered and not stopped. *)
Fixpoint drop_first (e : event) (l : list event) : list event :=
  match l with [] => [] | x :: r => if event_dec x e then r else x :: drop_first e r end.
Definition permanent (h : list ccmd) : list event :=
  fold_left (fun l c => match c with CReg KAlways e => l ++ [e] | CReg KStop e => drop_first e l | _ => l end) h [].

Lemma ckey_eqb_spec a b : reflect (a = b) (ckey_eqb a b).
Proof.
  destruct a as [x| |], b as [y| |]; cbn; try (constructor; congruence).
  destruct (Z.eqb_spec x y); constructor; congruence.
Qed.
Lemma event_eqb_spec a b : reflect (a = b) (event_eqb a b).
Proof.
  destruct a as [f d], b as [g e]. unfold event_eqb. cbn. destruct (Nat.eqb_spec f g) as [->|]; cbn; [|constructor; congruence].
  destruct d as [x|], e as [y|]; try (constructor; congruence). destruct (String.eqb_spec x y); constructor; congruence.
Qed.
Lemma dfind_dset d k v k' : dfind (dset d k v) k' = if ckey_eqb k' k then Some v else dfind d k'.
Proof.
  induction d as [|[k0 v0] r IH]; cbn; [reflexivity|].
  destruct (ckey_eqb_spec k k0) as [->|Hn]; cbn.
  - destruct (ckey_eqb_spec k' k0); reflexivity.
  - destruct (ckey_eqb_spec k' k0) as [->|Hn'].
    + destruct (ckey_eqb_spec k0 k); [congruence|reflexivity].
    + exact IH.
Qed.
Lemma remove1_spec l e : match remove1 l e with Ok l' => In e l /\ l' = drop_first e l | Throw w => ~ In e l /\ w = "ValueError"%string | UB => False end.
Proof.
  induction l as [|x r IH]; cbn; [auto|]. destruct (event_eqb_spec x e) as [->|Hn].
  - destruct (event_dec e e); [auto|congruence].
  - destruct (remove1 r e) as [r'|w|]; cbn; [| |exact IH].
    + destruct IH as [A ->]. destruct (event_dec x e); [congruence|auto].
    + destruct IH as [A ->]. split; [|reflexivity]. intros [E|E]; [congruence|contradiction].
Qed.

Definition list_at (c : calendar) (k : ckey) : list event := match dfind (c_events c) k with Some l => l | None => [] end.
Definition rep (c : calendar) (h : list ccmd) : Prop :=
  c_ping c = pings h /\ list_at c KAlways = permanent h /\
  (forall k, k <> KAlways -> dfind (c_events c) k = match registered k h with [] => None | l => Some l end).

Lemma registered_app k h c : registered k (h ++ [c]) = registered k h ++ registered k [c].
Proof. apply flat_map_app. Qed.

Lemma pings_app h c : pings (h ++ [c]) = pings h ++ pings [c].
Proof. apply flat_map_app. Qed.

(** A step succeeds unless it stops an event that is not permanent. *)
Theorem calendar_step c h x : rep c h ->
  match x with CReg KStop e => In e (permanent h) | _ => True end ->
  exists c', cexec c x = Ok c' /\ rep c' (h ++ [x]).
Proof.
  intros (Hp & Ha & Hk) Hx. destruct x as [k e|f]; cbn [cexec].
  - unfold registerEvent. destruct (ckey_eqb_spec k KStop) as [->|Hn].
    + unfold list_at in Ha. destruct (dfind (c_events c) KAlways) as [l|] eqn:E; [|rewrite <- Ha in Hx; destruct Hx].
      pose proof (remove1_spec l e) as R. destruct (remove1 l e) as [l'|w|]; cbn [bind].
      * destruct R as [_ ->]. eexists. split; [reflexivity|]. unfold rep, list_at. cbn [c_ping c_events]. split; [|split].
        -- rewrite pings_app, Hp. symmetry. apply app_nil_r.
        -- rewrite !dfind_dset. cbn. unfold permanent. rewrite fold_left_app. cbn. fold (permanent h). now rewrite Ha.
        -- intros k Hk'. rewrite !dfind_dset. rewrite registered_app. cbn.
           rewrite (Hk KStop) by discriminate. destruct (ckey_eqb_spec k KStop) as [->|Hs].
           ++ cbn. destruct (key_dec KStop KStop); [|congruence]. destruct (registered KStop h) eqn:Er; reflexivity.
           ++ destruct (ckey_eqb_spec k KAlways); [congruence|]. rewrite Hk by assumption.
              destruct (key_dec KStop k); [congruence|]. cbn. now rewrite app_nil_r.
      * exfalso. apply R. now rewrite Ha.
      * contradiction.
    + cbn [bind]. eexists. split; [reflexivity|]. unfold rep, list_at. cbn [c_ping c_events]. split; [|split].
      * rewrite pings_app, Hp. symmetry. apply app_nil_r.
      * rewrite dfind_dset. unfold permanent. rewrite fold_left_app. cbn. fold (permanent h).
        destruct (ckey_eqb_spec KAlways k) as [<-|Hna]; [now rewrite <- Ha|]. destruct k; try congruence. exact Ha.
      * intros k' Hk'. rewrite dfind_dset, registered_app. destruct (ckey_eqb_spec k' k) as [->|Hkk].
        -- rewrite Hk by assumption. cbn. destruct (key_dec k k); [|congruence]. destruct (registered k h); reflexivity.
        -- rewrite Hk by assumption. cbn. destruct (key_dec k k'); [congruence|]. cbn. now rewrite app_nil_r.
  - eexists. split; [reflexivity|]. unfold rep. cbn. split; [|split].
    + rewrite pings_app, Hp. reflexivity.
    + unfold permanent. rewrite fold_left_app. exact Ha.
    + intros k Hk'. rewrite registered_app. cbn. rewrite app_nil_r. exact (Hk k Hk').
Qed.

(** Only permanent events are stopped. *)
Fixpoint stops_ok (done h : list ccmd) : Prop :=
  match h with
  | [] => True
  | x :: r => match x with CReg KStop e => In e (permanent done) | _ => True end /\ stops_ok (done ++ [x]) r
  end.
Theorem calendar_history h : stops_ok [] h -> exists c, ofold cexec h cal_new = Ok c /\ rep c h.
Proof.
  assert (R0 : rep cal_new []) by (unfold rep; cbn; auto).
  intros Hs. change h with ([] ++ h) at 2. revert Hs R0. generalize cal_new. generalize (@nil ccmd).
  induction h as [|x r IH]; intros done c Hs R; cbn.
  - rewrite app_nil_r. eauto.
  - destruct Hs as [Hx Hr]. destruct (calendar_step c done x R Hx) as (c' & -> & R'). cbn [bind].
    destruct (IH _ _ Hr R') as (c2 & E & R2). exists c2. split; [exact E|]. now rewrite <- app_assoc in R2.
Qed.

(** Running tick t calls the permanent events, and then, if something is registered for t, the pings and the
    events of t, each in the order of registration. *)
Theorem calendar_run h t : stops_ok [] h ->
  exists c, ofold cexec h cal_new = Ok c /\
    run c (KTick t) = map fst (permanent h) ++
      match registered (KTick t) h with [] => [] | l => pings h ++ map fst l end.
Proof.
  intros Hs. destruct (calendar_history h Hs) as (c & E & Hp & Ha & Hk). exists c. split; [exact E|].
  unfold run. rewrite <- Ha, (Hk (KTick t)) by discriminate. unfold list_at.
  destruct (dfind (c_events c) KAlways); destruct (registered (KTick t) h); cbn; rewrite <- ?Hp; reflexivity.
Qed.

(** fastForward runs 0 .. t in order. *)
Theorem fast_forward c t : fastForward c t = concat (map (fun i => run c (KTick (Z.of_nat i))) (seq 0 (Z.to_nat (t + 1)))).
Proof.
  unfold fastForward. generalize (seq 0 (Z.to_nat (t + 1))). intros l.
  cut (forall acc, fold_left (fun tr i => tr ++ run c (KTick (Z.of_nat i))) l acc = acc ++ concat (map (fun i => run c (KTick (Z.of_nat i))) l)).
  { intros Hc. apply (Hc []). }
  induction l as [|i l IH]; intros acc; cbn; [now rewrite app_nil_r|]. rewrite IH. now rewrite app_assoc.
Qed.

(** How many times a function is called by fastForward: once per registration at a tick of the range, if it
    is neither permanent nor a ping. *)
Definition calls (f : nat) (l : list nat) : nat := count_occ Nat.eq_dec l f.
Theorem fast_forward_calls h t f : stops_ok [] h -> ~ In f (map fst (permanent h)) -> ~ In f (pings h) ->
  exists c, ofold cexec h cal_new = Ok c /\
    calls f (fastForward c t) = list_sum (map (fun i => calls f (map fst (registered (KTick (Z.of_nat i)) h))) (seq 0 (Z.to_nat (t + 1)))).
Proof.
  intros Hs Hp Hg. destruct (calendar_history h Hs) as (c & E & R). exists c. split; [exact E|]. rewrite fast_forward.
  generalize (seq 0 (Z.to_nat (t + 1))). intros l. induction l as [|i l IH]; [reflexivity|]. cbn [map concat].
  unfold calls in *. rewrite count_occ_app, IH. cbn [list_sum fold_right]. f_equal.
  destruct (calendar_run h (Z.of_nat i) Hs) as (c' & E' & R'). rewrite E in E'. injection E' as <-. rewrite R'.
  rewrite count_occ_app. rewrite (proj1 (count_occ_not_In Nat.eq_dec _ _) Hp). cbn.
  destruct (registered (KTick (Z.of_nat i)) h); [reflexivity|]. rewrite count_occ_app.
  rewrite (proj1 (count_occ_not_In Nat.eq_dec _ _) Hg). reflexivity.
Qed.

(** A stopped event is no longer called, if it was registered once. *)
Lemma drop_first_count e l : count_occ event_dec (drop_first e l) e = count_occ event_dec l e - 1.
Proof. induction l as [|x r IH]; cbn; [reflexivity|]. destruct (event_dec x e) as [->|Hn]; [lia|]. cbn. destruct (event_dec x e); [contradiction|exact IH]. Qed.
Theorem stop_once h e : permanent (h ++ [CReg KStop e]) = drop_first e (permanent h) /\
  (count_occ event_dec (permanent h) e = 1 -> ~ In e (permanent (h ++ [CReg KStop e]))).
Proof.
  assert (E : permanent (h ++ [CReg KStop e]) = drop_first e (permanent h)) by (unfold permanent; now rewrite fold_left_app).
  split; [exact E|]. intros Hc. rewrite E. apply (count_occ_not_In event_dec). rewrite drop_first_count, Hc. reflexivity.
Qed.

(** Stopping needs the same documentation, and an event registered twice needs two stops; otherwise it raises. *)
Theorem stop_other_doc_refuted f d d' : d <> d' ->
  ofold cexec [CReg KAlways (f, d); CReg KStop (f, d')] cal_new = Throw "ValueError".
Proof.
  intros Hd. unfold ofold, cexec, registerEvent. cbn [ckey_eqb bind dfind dset c_events c_ping cal_new app remove1].
  destruct (event_eqb_spec (f, d) (f, d')); [congruence|]. reflexivity.
Qed.
Theorem stop_first_refuted e : ofold cexec [CReg KStop e] cal_new = Throw "KeyError".
Proof. reflexivity. Qed.
Theorem stop_twice_refuted f d : exists c, ofold cexec [CReg KAlways (f, d); CReg KAlways (f, d); CReg KStop (f, d)] cal_new = Ok c /\
  run c (KTick 0) = [f].
Proof. eexists. split; [|]. unfold ofold, cexec, registerEvent. cbn [ckey_eqb bind dfind dset c_events c_ping cal_new app remove1].
  destruct (event_eqb_spec (f, d) (f, d)); [reflexivity|congruence]. reflexivity. Qed.

(** A function given with a text is registered once, under this text instead of its documentation. *)
Theorem register_text c k f d s : registerEvents c k [AFun f d; AText s] = cexec c (CReg k (f, Some s)).
Proof. reflexivity. Qed.

(** Groups: the functions of a call are registered in order. *)
Theorem register_group c k l : (forall s, ~ In (AText s) l) -> length l <> 2 ->
  registerEvents c k l =
  ofold (fun c e => registerEvent c k e) (map (fun a => match a with AFun f d | APair f d => (f, d) | AText s => (0, Some s) end) l) c.
Proof.
  intros Ht Hl. assert (G : forall c, ofold (fun c a => let* e := event_of a in registerEvent c k e) l c =
    ofold (fun c e => registerEvent c k e) (map (fun a => match a with AFun f d | APair f d => (f, d) | AText s => (0, Some s) end) l) c).
  { clear Hl. induction l as [|a l IH]; intros c0; [reflexivity|]. cbn [ofold map].
    destruct a as [f d|f d|s]; cbn [event_of bind]; [| |exfalso; apply (Ht s); now left];
      destruct (registerEvent c0 k (f, d)); cbn [bind]; try reflexivity; apply IH; intros s Hin; apply (Ht s); now right. }
  unfold registerEvents. destruct l as [|[f d|f d|s] [|[f' d'|f' d'|s'] [|? ?]]]; try apply G; cbn in Hl; lia.
Qed.

Example calendar_example :
  let h := [CReg (KTick 3) (1, None); CReg KAlways (2, None); CPing 9; CReg (KTick 3) (4, Some "x"%string); CReg KAlways (5, None);
            CReg KStop (2, None); CReg (KTick 0) (6, None)] in
  stops_ok [] h /\ exists c, ofold cexec h cal_new = Ok c /\ run c (KTick 3) = [5; 9; 1; 4] /\ run c (KTick 1) = [5] /\
    fastForward c 3 = [5; 9; 6; 5; 5; 5; 9; 1; 4].
Proof.
  cbn. split; [repeat split; auto|]. eexists. split; [reflexivity|]. repeat split; reflexivity.
Qed.

Print Assumptions calendar_step.
Print Assumptions calendar_history.
Print Assumptions calendar_run.
Print Assumptions fast_forward.
Print Assumptions fast_forward_calls.
Print Assumptions stop_once.
Print Assumptions stop_other_doc_refuted.
Print Assumptions stop_first_refuted.
Print Assumptions stop_twice_refuted.
Print Assumptions register_group.
Print Assumptions register_text.
