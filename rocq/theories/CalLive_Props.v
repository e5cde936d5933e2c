(** C123: the calendar when the actions themselves use it. *)
From Coq Require Import String List Arith Lia ZArith Bool.
From Verif Require Import Base Calendar_Model Calendar_Props CalLive_Model.
Import ListNotations.

Local Arguments key_dec : simpl never.
Local Arguments event_dec : simpl never.

Local Notation lstate := (calendar * list nat)%type.
Local Notation lresult := (option (outcome lstate)).

(** ** Specification *)
(** A command that registers an action for a tick after [t]. *)
Definition after (t : Z) (x : ccmd) : Prop := exists t' e, x = CReg (KTick t') e /\ (t < t')%Z.
(** The calls expected at tick [t] of a calendar with history [h]. *)
Definition expected (h : list ccmd) (t : Z) : list nat :=
  map fst (permanent h) ++ match registered (KTick t) h with [] => [] | l => pings h ++ map fst l end.
(** A command that stops nothing. *)
Definition adds (x : ccmd) : Prop := match x with CReg KStop _ => False | _ => True end.

(** ** Proofs *)
Lemma after_mono t t' x : (t <= t')%Z -> after t' x -> after t x.
Proof. intros H (u & e & -> & Hu). exists u, e. split; [reflexivity|lia]. Qed.
Lemma permanent_snoc h x : permanent (h ++ [x]) =
  match x with CReg KAlways e => permanent h ++ [e] | CReg KStop e => drop_first e (permanent h) | _ => permanent h end.
Proof. unfold permanent. rewrite fold_left_app. reflexivity. Qed.
Lemma registered_many k h l : registered k (h ++ l) = registered k h ++ registered k l.
Proof. apply flat_map_app. Qed.
Lemma pings_many h l : pings (h ++ l) = pings h ++ pings l.
Proof. apply flat_map_app. Qed.
Lemma after_permanent t l : forall h, Forall (after t) l -> permanent (h ++ l) = permanent h.
Proof.
  induction l as [|x r IH]; intros h H; [now rewrite app_nil_r|].
  inversion H as [|? ? (u & e & -> & _) Hr]; subst.
  change (CReg (KTick u) e :: r) with ([CReg (KTick u) e] ++ r). rewrite app_assoc, IH by exact Hr. now rewrite permanent_snoc.
Qed.
Lemma after_pings t l h : Forall (after t) l -> pings (h ++ l) = pings h.
Proof.
  intros H. rewrite pings_many. replace (pings l) with (@nil nat); [apply app_nil_r|].
  induction H as [|x r (u & e & -> & _) Hr IH]; [reflexivity|]. exact IH.
Qed.
Lemma after_registered t t' l h : (t' <= t)%Z -> Forall (after t) l -> registered (KTick t') (h ++ l) = registered (KTick t') h.
Proof.
  intros Ht H. rewrite registered_many. replace (registered (KTick t') l) with (@nil event); [apply app_nil_r|].
  induction H as [|x r (u & e & -> & Hu) Hr IH]; [reflexivity|]. cbn.
  destruct (key_dec (KTick u) (KTick t')) as [E|]; [injection E; lia|]. exact IH.
Qed.
Lemma after_expected t t' l h : (t' <= t)%Z -> Forall (after t) l -> expected (h ++ l) t' = expected h t'.
Proof. intros Ht H. unfold expected. now rewrite (after_permanent t), (after_registered t), (after_pings t). Qed.

Lemma exec_after t l : forall c h, rep c h -> Forall (after t) l -> exists c', ofold cexec l c = Ok c' /\ rep c' (h ++ l).
Proof.
  induction l as [|x r IH]; intros c h R H; cbn [ofold].
  - exists c. rewrite app_nil_r. auto.
  - inversion H as [|? ? Hx Hr]; subst. destruct (calendar_step c h x R) as (c1 & -> & R1).
    { destruct Hx as (u & e & -> & _). exact I. }
    cbn [bind]. destruct (IH c1 _ R1 Hr) as (c' & E & R'). exists c'. split; [exact E|]. now rewrite <- app_assoc in R'.
Qed.

Lemma skipn_nth (L : list nat) : forall i f, nth_error L i = Some f -> skipn i L = f :: skipn (S i) L.
Proof.
  induction L as [|x r IH]; intros [|i] f E; try discriminate; cbn in *; [now injection E as ->|].
  now rewrite (IH i f E).
Qed.

Section Later.
Variable act : Z -> list nat -> nat -> list ccmd.
Hypothesis act_after : forall t tr f, Forall (after t) (act t tr f).

(** A loop over a list that the functions do not change. *)
Lemma walk_fixed (sel : calendar -> list nat) (L : list nat) t :
  forall n i c h tr, (forall c' l, Forall (after t) l -> rep c' (h ++ l) -> sel c' = L) ->
  rep c h -> length L - i < n ->
  exists c' l, walk act n sel t i (c, tr) = Some (Ok (c', tr ++ skipn i L)) /\ rep c' (h ++ l) /\ Forall (after t) l.
Proof.
  induction n as [|n IH]; intros i c h tr Hs R Hn; [lia|]. cbn [walk fst snd].
  rewrite (Hs c []) by (auto; now rewrite app_nil_r).
  destruct (nth_error L i) as [f|] eqn:E.
  - assert (Hi : i < length L) by (apply nth_error_Some; congruence).
    destruct (exec_after t (act t tr f) c h R (act_after t tr f)) as (c1 & -> & R1).
    destruct (IH (S i) c1 (h ++ act t tr f) (tr ++ [f])) as (c' & l & -> & R' & Hl); [|exact R1|lia|].
    { intros c' l Hl R'. rewrite <- app_assoc in R'. apply (Hs c' (act t tr f ++ l)); [|exact R'].
      apply Forall_app. auto. }
    exists c', (act t tr f ++ l). split; [|split].
    + rewrite (skipn_nth L i f E). now rewrite <- app_assoc.
    + now rewrite app_assoc.
    + apply Forall_app. auto.
  - apply nth_error_None in E. exists c, []. rewrite skipn_all2, !app_nil_r by exact E. auto.
Qed.

Lemma funs_at_rep c h k : k <> KAlways -> rep c h -> funs_at k c = map fst (registered k h).
Proof. intros Hk (_ & _ & H). unfold funs_at. rewrite H by exact Hk. destruct (registered k h); reflexivity. Qed.
Lemma funs_always_rep c h : rep c h -> funs_at KAlways c = map fst (permanent h).
Proof. intros (_ & H & _). rewrite <- H. unfold funs_at, list_at. destruct (dfind (c_events c) KAlways); reflexivity. Qed.
Lemma has_key_rep c h t : rep c h -> has_key (KTick t) c = match registered (KTick t) h with [] => false | _ => true end.
Proof. intros (_ & _ & H). unfold has_key. rewrite H by discriminate. destruct (registered (KTick t) h); reflexivity. Qed.

(** Actions that register only for later ticks: tick [t] calls what was registered for it, each once. *)
Lemma run_after t c h tr n : rep c h ->
  length (permanent h) < n -> length (pings h) < n -> length (registered (KTick t) h) < n ->
  exists c' l, run_live act n t (c, tr) = Some (Ok (c', tr ++ expected h t)) /\ rep c' (h ++ l) /\ Forall (after t) l.
Proof.
  intros R N1 N2 N3. unfold run_live. cbn [fst].
  assert (A : exists c1 l1, (if has_key KAlways c then walk act n (funs_at KAlways) t 0 (c, tr) else Some (Ok (c, tr))) =
     Some (Ok (c1, tr ++ map fst (permanent h))) /\ rep c1 (h ++ l1) /\ Forall (after t) l1).
  { destruct (has_key KAlways c) eqn:E.
    - destruct (walk_fixed (funs_at KAlways) (map fst (permanent h)) t n 0 c h tr) as (c1 & l1 & -> & R1 & F1);
        [| exact R | rewrite map_length, Nat.sub_0_r; exact N1 | eauto].
      intros c' l Hl R'. rewrite (funs_always_rep _ _ R'). now rewrite (after_permanent t).
    - exists c, []. rewrite app_nil_r. split; [|auto]. unfold has_key in E.
      destruct R as (_ & Ha & _). unfold list_at in Ha. destruct (dfind (c_events c) KAlways); [discriminate|].
      rewrite <- Ha. cbn. now rewrite app_nil_r. }
  destruct A as (c1 & l1 & -> & R1 & F1). cbn [lbind fst]. rewrite (has_key_rep _ _ t R1).
  rewrite (after_registered t t l1 h) by (auto; lia). unfold expected.
  destruct (registered (KTick t) h) as [|e0 r0] eqn:Er.
  { exists c1, l1. rewrite app_nil_r. auto. }
  destruct (walk_fixed c_ping (pings h) t n 0 c1 (h ++ l1) (tr ++ map fst (permanent h))) as (c2 & l2 & -> & R2 & F2);
    [| exact R1 | lia | ].
  { intros c' l Hl R'. destruct R' as (-> & _). now rewrite !(after_pings t). }
  cbn [lbind]. rewrite <- app_assoc in R2.
  destruct (walk_fixed (funs_at (KTick t)) (map fst (e0 :: r0)) t n 0 c2 (h ++ (l1 ++ l2)) ((tr ++ map fst (permanent h)) ++ pings h))
    as (c3 & l3 & E3 & R3 & F3); [| exact R2 | rewrite map_length, Nat.sub_0_r; exact N3 | ].
  { intros c' l Hl R'. rewrite (funs_at_rep _ _ (KTick t) ltac:(discriminate) R').
    rewrite <- app_assoc. rewrite (after_registered t t); [now rewrite Er|lia|]. rewrite !Forall_app. auto. }
  rewrite skipn_O, E3. exists c3, ((l1 ++ l2) ++ l3). split; [|split].
  - rewrite skipn_O. do 3 f_equal. now rewrite <- !app_assoc.
  - now rewrite app_assoc.
  - rewrite !Forall_app. auto.
Qed.

Lemma lbind_some r k s' : lbind r k = Some (Ok s') -> exists s, r = Some (Ok s) /\ k s = Some (Ok s').
Proof. destruct r as [[s|w|]|]; cbn; try discriminate. eauto. Qed.
End Later.

(** More calls allowed: the same result. *)
Lemma walk_mono act sel t : forall n m i s r, n <= m -> walk act n sel t i s = Some r -> walk act m sel t i s = Some r.
Proof.
  induction n as [|n IH]; intros m i s r Hm E; [discriminate|]. destruct m as [|m]; [lia|]. cbn [walk] in *.
  destruct (nth_error (sel (fst s)) i); [|exact E].
  destruct (ofold cexec (act t (snd s) n0) (fst s)); [|exact E|exact E]. apply IH; [lia|exact E].
Qed.
Lemma lbind_mono (r r' : lresult) (k k' : lstate -> lresult) o : (forall x, r = Some x -> r' = Some x) ->
  (forall s x, k s = Some x -> k' s = Some x) -> lbind r k = Some o -> lbind r' k' = Some o.
Proof. intros Hr Hk E. destruct r as [x|]; [|discriminate]. rewrite (Hr x eq_refl). destruct x; cbn in *; auto. Qed.
Lemma run_mono act t n m s r : n <= m -> run_live act n t s = Some r -> run_live act m t s = Some r.
Proof.
  intros Hm. apply lbind_mono.
  - intros x. destruct (has_key KAlways (fst s)); [now apply walk_mono|auto].
  - intros s1 x. destruct (has_key (KTick t) (fst s1)); [|auto]. apply lbind_mono; intros *; now apply walk_mono.
Qed.
Lemma forward_mono act n m : n <= m -> forall ts s r, forward_live act n ts s = Some r -> forward_live act m ts s = Some r.
Proof.
  intros Hm. induction ts as [|i r IH]; intros s x; [auto|]. cbn [forward_live]. apply lbind_mono; [|exact IH].
  intros y. now apply run_mono.
Qed.

Lemma forward_after act : (forall t tr f, Forall (after t) (act t tr f)) -> forall len a c h tr, rep c h ->
  exists n c' l, forward_live act n (seq a len) (c, tr) =
    Some (Ok (c', tr ++ concat (map (fun i => expected (h ++ l) (Z.of_nat i)) (seq a len)))) /\
    rep c' (h ++ l) /\ Forall (after (Z.of_nat a)) l.
Proof.
  intros Ha. induction len as [|len IH]; intros a c h tr R.
  - exists 0, c, []. cbn. rewrite !app_nil_r. auto.
  - set (n1 := S (length (permanent h) + length (pings h) + length (registered (KTick (Z.of_nat a)) h))).
    destruct (run_after act Ha (Z.of_nat a) c h tr n1 R) as (c1 & l1 & E1 & R1 & F1); [unfold n1; lia ..|].
    destruct (IH (S a) c1 (h ++ l1) (tr ++ expected h (Z.of_nat a)) R1) as (n2 & c2 & l2 & E2 & R2 & F2).
    exists (n1 + n2), c2, (l1 ++ l2). rewrite <- app_assoc in R2, E2.
    assert (F2' : Forall (after (Z.of_nat a)) l2) by (eapply Forall_impl; [|exact F2]; intros x; apply after_mono; lia).
    split; [|split; [exact R2|apply Forall_app; auto]].
    cbn [seq forward_live map concat].
    rewrite (run_mono act _ n1 (n1 + n2) _ _ ltac:(lia) E1). cbn [lbind].
    rewrite (forward_mono act n2 (n1 + n2) ltac:(lia) _ _ _ E2). do 3 f_equal. rewrite <- app_assoc. f_equal. f_equal.
    symmetry. apply (after_expected (Z.of_nat a)); [lia|]. apply Forall_app; auto.
Qed.

(** ** Actions that register later actions *)
(** When an action only registers actions for ticks after the one it is called at, then every action, registered
    beforehand or by another action, is called at its tick, once per registration and in the order of
    registration; the run ends, whatever the actions. *)
Theorem live_forward act h T : (forall t tr f x, In x (act t tr f) -> after t x) -> stops_ok [] h ->
  exists c, ofold cexec h cal_new = Ok c /\
  exists n c' more, forward_live act n (seq 0 (S T)) (c, []) =
      Some (Ok (c', concat (map (fun i => expected (h ++ more) (Z.of_nat i)) (seq 0 (S T))))) /\
    rep c' (h ++ more) /\ (forall x, In x more -> after 0 x).
Proof.
  intros Ha Hs. destruct (calendar_history h Hs) as (c & E & R). exists c. split; [exact E|].
  destruct (forward_after act (fun t tr f => proj2 (Forall_forall _ _) (Ha t tr f)) (S T) 0 c h [] R) as (n & c' & l & E' & R' & F).
  exists n, c', l. split; [exact E'|]. split; [exact R'|]. now apply Forall_forall.
Qed.

(** Actions that leave the calendar alone: the calendar of the other theorems. *)
Theorem live_quiet h t tr : stops_ok [] h ->
  exists c n, ofold cexec h cal_new = Ok c /\ run_live (fun _ _ _ => []) n t (c, tr) = Some (Ok (c, tr ++ run c (KTick t))).
Proof.
  intros Hs. destruct (calendar_history h Hs) as (c & E & R). exists c.
  assert (W : forall sel n i tr, length (sel c) - i < n ->
    walk (fun _ _ _ => []) n sel t i (c, tr) = Some (Ok (c, tr ++ skipn i (sel c)))).
  { intros sel n. induction n as [|n IH]; intros i tr0 Hn; [lia|]. cbn [walk fst snd ofold].
    destruct (nth_error (sel c) i) as [f|] eqn:En.
    - assert (i < length (sel c)) by (apply nth_error_Some; congruence). rewrite IH by lia. rewrite (skipn_nth _ i f En). now rewrite <- app_assoc.
    - apply nth_error_None in En. rewrite skipn_all2, app_nil_r by exact En. reflexivity. }
  exists (S (length (funs_at KAlways c) + length (c_ping c) + length (funs_at (KTick t) c))). split; [exact E|].
  unfold run_live. cbn [fst].
  replace (if has_key KAlways c then _ else _) with (Some (Ok (c, tr ++ funs_at KAlways c))).
  2:{ unfold has_key, funs_at at 1. destruct (dfind (c_events c) KAlways) eqn:Ed; [|now rewrite app_nil_r].
      rewrite W by lia. unfold funs_at at 1. now rewrite Ed. }
  cbn [lbind fst]. unfold run. change (match dfind (c_events c) KAlways with Some l => map fst l | None => [] end) with (funs_at KAlways c).
  unfold has_key. destruct (dfind (c_events c) (KTick t)) eqn:Ed; [|now rewrite app_nil_r].
  rewrite W by lia. cbn [lbind]. rewrite W by lia. rewrite !skipn_O.
  replace (funs_at (KTick t) c) with (map fst l) by (unfold funs_at; now rewrite Ed). now rewrite <- !app_assoc.
Qed.

(** ** Actions that register for the tick they run at *)
Lemma exec_adds l : forall c h, rep c h -> Forall adds l -> exists c', ofold cexec l c = Ok c' /\ rep c' (h ++ l).
Proof.
  induction l as [|x r IH]; intros c h R H; cbn [ofold].
  - exists c. rewrite app_nil_r. auto.
  - inversion H as [|? ? Hx Hr]; subst. destruct (calendar_step c h x R) as (c1 & -> & R1).
    { destruct x as [[]|]; cbn in *; tauto. }
    cbn [bind]. destruct (IH c1 _ R1 Hr) as (c' & E & R'). exists c'. split; [exact E|]. now rewrite <- app_assoc in R'.
Qed.
Lemma permanent_adds l : forall h, Forall adds l -> exists r, permanent (h ++ l) = permanent h ++ r.
Proof.
  induction l as [|x l IH]; intros h H; [exists []; now rewrite !app_nil_r|]. inversion H as [|? ? Hx Hl]; subst.
  destruct (IH (h ++ [x]) Hl) as (r & E). rewrite <- app_assoc in E. cbn [app] in E. rewrite E, permanent_snoc.
  destruct x as [[u| |] e|f]; cbn in Hx; try contradiction; [exists r|rewrite <- app_assoc; eexists|exists r]; reflexivity.
Qed.

Lemma walk_adds act (Ha : forall t tr f, Forall adds (act t tr f)) sel (S : list ccmd -> list nat) t :
  (forall c h, rep c h -> sel c = S h) -> (forall h l, Forall adds l -> exists r, S (h ++ l) = S h ++ r) ->
  forall n i c h tr c' tr', rep c h -> walk act n sel t i (c, tr) = Some (Ok (c', tr')) ->
  exists l, Forall adds l /\ rep c' (h ++ l) /\ tr' = tr ++ skipn i (S (h ++ l)).
Proof.
  intros Hs Hg. induction n as [|n IH]; intros i c h tr c' tr' R E; [discriminate|]. cbn [walk fst snd] in E.
  rewrite (Hs c h R) in E. destruct (nth_error (S h) i) as [f|] eqn:En.
  - destruct (exec_adds (act t tr f) c h R (Ha t tr f)) as (c1 & E1 & R1). rewrite E1 in E.
    destruct (IH _ _ _ _ _ _ R1 E) as (l & Hl & R' & ->). exists (act t tr f ++ l).
    rewrite app_assoc. split; [apply Forall_app; auto|]. split; [exact R'|].
    rewrite (skipn_nth _ i f); [now rewrite <- app_assoc|].
    destruct (Hg h (act t tr f ++ l)) as (r & Er); [apply Forall_app; auto|]. rewrite <- app_assoc, Er.
    rewrite nth_error_app1; [exact En|]. apply nth_error_Some. congruence.
  - injection E as <- <-. exists []. rewrite app_nil_r. split; [constructor|]. split; [exact R|].
    apply nth_error_None in En. now rewrite skipn_all2, app_nil_r.
Qed.

(** When actions register and add pings but stop nothing, a run that ends has called: all the permanent actions,
    those registered by permanent actions of this tick included; then, if there is something for the tick, all
    the pings and all the actions of the tick, those registered in the course of the tick included. *)
Theorem live_same_tick act n h t c tr c' tr' : (forall t tr f x, In x (act t tr f) -> adds x) -> rep c h ->
  run_live act n t (c, tr) = Some (Ok (c', tr')) ->
  exists h1 h2 h3, rep c' (h ++ h1 ++ h2 ++ h3) /\
    tr' = tr ++ map fst (permanent (h ++ h1)) ++
      match registered (KTick t) (h ++ h1) with
      | [] => []
      | _ => pings (h ++ h1 ++ h2) ++ map fst (registered (KTick t) (h ++ h1 ++ h2 ++ h3))
      end.
Proof.
  intros Ha0 R E. assert (Ha : forall t tr f, Forall adds (act t tr f)) by (intros; apply Forall_forall; apply Ha0).
  unfold run_live in E. apply lbind_some in E. destruct E as ((c1 & tr1) & E1 & E2). cbn [fst] in *.
  assert (A : exists h1, rep c1 (h ++ h1) /\ tr1 = tr ++ map fst (permanent (h ++ h1))).
  { destruct (has_key KAlways c) eqn:Ek.
    - destruct (walk_adds act Ha (funs_at KAlways) (fun h => map fst (permanent h)) t) with (3 := R) (4 := E1) as (l & _ & R' & ->).
      + intros c0 h0. apply funs_always_rep.
      + intros h0 l0 H0. destruct (permanent_adds l0 h0 H0) as (r & ->). rewrite map_app. eauto.
      + exists l. split; [exact R'|reflexivity].
    - injection E1 as <- <-. exists []. rewrite app_nil_r. split; [exact R|]. destruct R as (_ & Hp & _).
      rewrite <- Hp. unfold list_at. unfold has_key in Ek. destruct (dfind (c_events c) KAlways); [discriminate|].
      cbn. now rewrite app_nil_r. }
  destruct A as (h1 & R1 & ->). rewrite (has_key_rep _ _ t R1) in E2.
  destruct (registered (KTick t) (h ++ h1)) as [|e0 r0] eqn:Er.
  { injection E2 as <- <-. exists h1, [], []. rewrite !app_nil_r. split; [exact R1|].
    now rewrite Er, app_nil_r. }
  apply lbind_some in E2. destruct E2 as ((c2 & tr2) & E2 & E3).
  destruct (walk_adds act Ha c_ping pings t) with (3 := R1) (4 := E2) as (h2 & _ & R2 & ->).
  { intros c0 h0 (Hp & _). exact Hp. }
  { intros h0 l0 _. rewrite pings_many. eauto. }
  destruct (walk_adds act Ha (funs_at (KTick t)) (fun h => map fst (registered (KTick t) h)) t) with (3 := R2) (4 := E3) as (h3 & _ & R3 & ->).
  { intros c0 h0. now apply funs_at_rep. }
  { intros h0 l0 _. rewrite registered_many, map_app. eauto. }
  exists h1, h2, h3. rewrite <- !app_assoc in R3. split; [exact R3|]. rewrite Er, !skipn_O, <- !app_assoc. reflexivity.
Qed.

(** An action that registers itself for the tick it runs at: the run never ends. *)
Theorem live_loop_refuted t f d n tr :
  exists c, ofold cexec [CReg (KTick t) (f, d)] cal_new = Ok c /\
    run_live (fun t _ g => [CReg (KTick t) (g, d)]) n t (c, tr) = None.
Proof.
  destruct (calendar_history [CReg (KTick t) (f, d)]) as (c & E & R); [cbn; auto|]. exists c. split; [exact E|].
  assert (Hr : forall k, registered (KTick t) (repeat (CReg (KTick t) (f, d)) k) = repeat (f, d) k).
  { induction k; cbn; [reflexivity|]. destruct (key_dec (KTick t) (KTick t)); [|congruence]. cbn. now f_equal. }
  assert (W : forall m i c tr, rep c (repeat (CReg (KTick t) (f, d)) (S i)) ->
     walk (fun t _ g => [CReg (KTick t) (g, d)]) m (funs_at (KTick t)) t i (c, tr) = None).
  { induction m as [|m IH]; intros i c0 tr0 R0; [reflexivity|]. cbn [walk fst snd].
    rewrite (funs_at_rep _ _ (KTick t) ltac:(discriminate) R0), Hr.
    assert (En : nth_error (map fst (repeat (f, d) (S i))) i = Some f).
    { clear. induction i; [reflexivity|]. cbn in *. exact IHi. }
    rewrite En. destruct (calendar_step c0 _ (CReg (KTick t) (f, d)) R0 I) as (c1 & E1 & R1).
    cbn [ofold]. rewrite E1. cbn [bind]. apply IH. now rewrite <- repeat_cons in R1. }
  unfold run_live. cbn [fst].
  replace (has_key KAlways c) with false.
  2:{ destruct R as (_ & Ha & _). unfold list_at in Ha. cbn in E. injection E as <-. reflexivity. }
  cbn [lbind fst]. rewrite (has_key_rep _ _ t R). change [CReg (KTick t) (f, d)] with (repeat (CReg (KTick t) (f, d)) 1) at 1. rewrite Hr. cbn [repeat].
  destruct n as [|n]; [reflexivity|]. destruct R as (Hp & R). 
  replace (walk _ (S n) c_ping t 0 (c, tr)) with (Some (Ok (c, tr))) by (cbn [walk fst]; now rewrite Hp).
  cbn [lbind]. apply W. exact (conj Hp R).
Qed.

(** ** Actions that stop actions *)
Lemma walk_quiet act sel t c : forall m n i tr, (forall tr g, In g (firstn m (skipn i (sel c))) -> act t tr g = []) ->
  m <= length (sel c) - i ->
  walk act (m + n) sel t i (c, tr) = walk act n sel t (i + m) (c, tr ++ firstn m (skipn i (sel c))).
Proof.
  induction m as [|m IH]; intros n i tr Hq Hm; [cbn; now rewrite Nat.add_0_r, app_nil_r|]. cbn [Nat.add walk fst snd].
  destruct (nth_error (sel c) i) as [f|] eqn:En.
  2:{ apply nth_error_None in En. lia. }
  rewrite (skipn_nth _ i f En) in Hq |- *. cbn [firstn] in *. rewrite (Hq tr f) by now left. cbn [ofold].
  rewrite IH; [|intros; apply Hq; now right|lia]. rewrite Nat.add_succ_r. cbn [Nat.add]. now rewrite <- app_assoc.
Qed.
Lemma permanent_many l : permanent (map (CReg KAlways) l) = l.
Proof.
  induction l as [|e l IH] using rev_ind; [reflexivity|]. rewrite map_app. cbn [map]. now rewrite permanent_snoc, IH.
Qed.
Lemma stops_ok_many l : forall h, stops_ok h (map (CReg KAlways) l).
Proof. induction l as [|e l IH]; intros h; cbn; auto. Qed.
Lemma drop_first_app e a b : drop_first e (a ++ b) = if in_dec event_dec e a then drop_first e a ++ b else a ++ drop_first e b.
Proof.
  induction a as [|x a IH]; [reflexivity|]. cbn [app drop_first]. rewrite IH.
  destruct (event_dec x e) as [->|Hn].
  - destruct (in_dec event_dec e (e :: a)) as [|C]; [reflexivity|]. exfalso. apply C. now left.
  - destruct (in_dec event_dec e a) as [Hi|Hi], (in_dec event_dec e (x :: a)) as [Hj|Hj]; try reflexivity.
    + exfalso. apply Hj. now right.
    + exfalso. destruct Hj; contradiction.
Qed.
Lemma drop_first_length e a : In e a -> S (length (drop_first e a)) = length a.
Proof.
  induction a as [|x a IH]; intros H; [contradiction|]. cbn [drop_first]. destruct (event_dec x e); [reflexivity|].
  destruct H as [|H]; [contradiction|]. cbn. now rewrite (IH H).
Qed.

Section Stop.
Variables (pre post : list event) (f : nat) (d : option string) (e : event) (t : Z).
Hypothesis f_once : ~ In f (map fst (pre ++ post)).
(** The permanent action [f] stops [e]; the others do nothing to the calendar. *)
Let act (_ : Z) (_ : list nat) (g : nat) : list ccmd := if Nat.eqb g f then [CReg KStop e] else [].
Let h := map (CReg KAlways) (pre ++ (f, d) :: post).

Lemma run_stop : In e (pre ++ (f, d) :: post) ->
  exists c n c', ofold cexec h cal_new = Ok c /\
    run_live act n t (c, []) = Some (Ok (c', map fst pre ++ f :: skipn (S (length pre)) (map fst (drop_first e (pre ++ (f, d) :: post))))) /\
    rep c' (h ++ [CReg KStop e]).
Proof.
  intros He. destruct (calendar_history h (stops_ok_many _ [])) as (c & E & R).
  destruct (calendar_step c h (CReg KStop e) R) as (c' & E' & R').
  { unfold h. now rewrite permanent_many. }
  assert (F : funs_at KAlways c = map fst pre ++ f :: map fst post).
  { rewrite (funs_always_rep _ _ R). unfold h. rewrite permanent_many, map_app. reflexivity. }
  assert (F' : funs_at KAlways c' = map fst (drop_first e (pre ++ (f, d) :: post))).
  { rewrite (funs_always_rep _ _ R'), permanent_snoc. unfold h. now rewrite permanent_many. }
  assert (Q : forall tr g, g <> f -> act t tr g = []).
  { intros tr g Hg. unfold act. destruct (Nat.eqb_spec g f); [contradiction|reflexivity]. }
  set (k := length (funs_at KAlways c') - S (length pre)).
  exists c, (length pre + S (k + 1)), c'. split; [exact E|]. split; [|exact R'].
  assert (K : forall t, has_key (KTick t) c' = false).
  { intros u. rewrite (has_key_rep _ _ u R'). replace (registered (KTick u) (h ++ [CReg KStop e])) with (@nil event); [reflexivity|].
    unfold h. rewrite registered_many. cbn. destruct (key_dec KStop (KTick u)); [discriminate|]. rewrite app_nil_r.
    generalize (pre ++ (f, d) :: post). intros l. induction l as [|x l IH]; [reflexivity|]. cbn.
    destruct (key_dec KAlways (KTick u)); [discriminate|]. exact IH. }
  unfold run_live. cbn [fst].
  replace (has_key KAlways c) with true.
  2:{ unfold funs_at in F. unfold has_key. destruct (dfind (c_events c) KAlways); [reflexivity|]. now destruct pre. }
  rewrite walk_quiet; rewrite ?F, ?skipn_O, ?app_length, ?map_length.
  2:{ intros tr g Hg. apply Q. intros ->. apply f_once. rewrite <- (map_length fst pre), firstn_app, firstn_all, Nat.sub_diag in Hg.
      cbn in Hg. rewrite app_nil_r in Hg. rewrite map_app. apply in_or_app. now left. }
  2:{ cbn. lia. }
  cbn [Nat.add walk fst snd app]. rewrite F.
  replace (nth_error (map fst pre ++ f :: map fst post) (length pre)) with (Some f).
  2:{ rewrite nth_error_app2 by (rewrite map_length; lia). rewrite map_length, Nat.sub_diag. reflexivity. }
  unfold act at 1. rewrite Nat.eqb_refl. cbn [ofold]. rewrite E'. cbn [bind].
  rewrite walk_quiet.
  2:{ intros tr g Hg. apply Q. intros ->. apply f_once. unfold k in Hg. rewrite firstn_all2 in Hg by (rewrite skipn_length; lia).
      rewrite F' in Hg. revert Hg. rewrite skipn_map, map_app, in_app_iff. intros Hg.
      rewrite drop_first_app in Hg. destruct (in_dec event_dec e pre) as [Hi|Hi].
      - right. rewrite skipn_app in Hg. rewrite skipn_all2 in Hg by (pose proof (drop_first_length e pre Hi); lia).
        replace (S (length pre) - length (drop_first e pre)) with 2 in Hg by (pose proof (drop_first_length e pre Hi); lia).
        cbn [skipn app] in Hg. destruct post; [exact Hg|]. now right.
      - right. rewrite skipn_app, skipn_all2 in Hg by lia. replace (S (length pre) - length pre) with 1 in Hg by lia.
        cbn [app drop_first] in Hg. destruct (event_dec (f, d) e); [destruct post; [exact Hg|now right]|].
        cbn [skipn] in Hg. revert Hg. clear. induction post as [|x l IH]; cbn; [tauto|].
        destruct (event_dec x e); cbn; tauto. }
  2: unfold k; lia.
  cbn [walk fst snd]. replace (S (length pre) + k) with (S (length pre) + k) by reflexivity.
  replace (nth_error (funs_at KAlways c') (S (length pre) + k)) with (@None nat).
  2:{ symmetry. apply nth_error_None. unfold k. lia. }
  cbn [lbind fst]. rewrite K. do 3 f_equal.
  unfold k. rewrite (firstn_all2 (skipn _ _)) by (rewrite skipn_length; lia). rewrite F'.
  rewrite <- (map_length fst pre) at 1. rewrite firstn_app, firstn_all, Nat.sub_diag. cbn [firstn]. rewrite app_nil_r, <- app_assoc.
  reflexivity.
Qed.

(** An action that stops itself, or a permanent action registered before it, makes the calendar skip the next
    permanent action at this tick. *)
Theorem live_stop_skips_refuted : In e (pre ++ [(f, d)]) ->
  exists c n c', ofold cexec h cal_new = Ok c /\
    run_live act n t (c, []) = Some (Ok (c', map fst pre ++ f :: map fst (tl post))) /\
    permanent (h ++ [CReg KStop e]) = drop_first e (pre ++ [(f, d)]) ++ post.
Proof.
  intros He. assert (Hx : pre ++ (f, d) :: post = (pre ++ [(f, d)]) ++ post) by now rewrite <- app_assoc.
  destruct run_stop as (c & n & c' & E & Er & R).
  { rewrite Hx. apply in_or_app. now left. }
  exists c, n, c'. split; [exact E|].
  assert (D : drop_first e (pre ++ (f, d) :: post) = drop_first e (pre ++ [(f, d)]) ++ post).
  { rewrite Hx, drop_first_app. destruct (in_dec event_dec e (pre ++ [(f, d)])); [reflexivity|contradiction]. }
  split.
  - rewrite Er, D. pose proof (drop_first_length e _ He) as Hl. rewrite app_length in Hl. cbn in Hl.
    do 4 f_equal. rewrite skipn_map. f_equal. rewrite skipn_app, skipn_all2 by lia.
    replace (S (length pre) - length (drop_first e (pre ++ [(f, d)]))) with 1 by lia. destruct post; reflexivity.
  - rewrite permanent_snoc. unfold h. now rewrite permanent_many.
Qed.

(** Stopping a permanent action registered after it: this one is not called, the others are. *)
Theorem live_stop_later : ~ In e (pre ++ [(f, d)]) -> In e post ->
  exists c n c', ofold cexec h cal_new = Ok c /\
    run_live act n t (c, []) = Some (Ok (c', map fst pre ++ f :: map fst (drop_first e post))) /\
    permanent (h ++ [CReg KStop e]) = pre ++ (f, d) :: drop_first e post.
Proof.
  intros Hn He. assert (Hx : pre ++ (f, d) :: post = (pre ++ [(f, d)]) ++ post) by now rewrite <- app_assoc.
  destruct run_stop as (c & n & c' & E & Er & R).
  { rewrite Hx. apply in_or_app. now right. }
  exists c, n, c'. split; [exact E|].
  assert (D : drop_first e (pre ++ (f, d) :: post) = (pre ++ [(f, d)]) ++ drop_first e post).
  { rewrite Hx, drop_first_app. destruct (in_dec event_dec e (pre ++ [(f, d)])); [contradiction|reflexivity]. }
  split.
  - rewrite Er, D. do 4 f_equal. rewrite skipn_map. f_equal. rewrite skipn_app, skipn_all2 by (rewrite app_length; cbn; lia).
    replace (S (length pre) - length (pre ++ [(f, d)])) with 0 by (rewrite app_length; cbn [length]; lia). reflexivity.
  - rewrite permanent_snoc. unfold h. rewrite permanent_many, D. now rewrite <- app_assoc.
Qed.

(** Stopping an action that is not permanent raises, and the tick ends there: none of the later actions is
    called, those of the tick included. *)
Theorem live_stop_unknown l : ~ In e (pre ++ (f, d) :: post) ->
  exists c n, ofold cexec (h ++ map (fun x => CReg (KTick t) x) l) cal_new = Ok c /\
    run_live act n t (c, []) = Some (Throw "ValueError").
Proof.
  intros He. set (h' := h ++ map (fun x => CReg (KTick t) x) l).
  assert (P : permanent h' = pre ++ (f, d) :: post).
  { unfold h'. induction l as [|x l' IH] using rev_ind; [cbn; rewrite app_nil_r; apply permanent_many|].
    rewrite map_app. cbn [map]. rewrite app_assoc, permanent_snoc. exact IH. }
  assert (Hs : forall l0 h0, stops_ok h0 (map (fun x => CReg (KTick t) x) l0)) by (induction l0; cbn; auto).
  assert (Hs' : forall l0 h0, stops_ok h0 (map (CReg KAlways) l0 ++ map (fun x => CReg (KTick t) x) l)).
  { induction l0 as [|x l0 IH]; intros h0; [apply Hs|]. cbn. auto. }
  destruct (calendar_history h' (Hs' _ [])) as (c & E & R). exists c, (length pre + 1). split; [exact E|].
  assert (F : funs_at KAlways c = map fst pre ++ f :: map fst post).
  { rewrite (funs_always_rep _ _ R), P, map_app. reflexivity. }
  unfold run_live. cbn [fst].
  replace (has_key KAlways c) with true.
  2:{ unfold funs_at in F. unfold has_key. destruct (dfind (c_events c) KAlways); [reflexivity|]. now destruct pre. }
  rewrite walk_quiet; rewrite ?F, ?skipn_O, ?app_length, ?map_length.
  2:{ intros tr g Hg. unfold act. destruct (Nat.eqb_spec g f) as [->|]; [|reflexivity]. exfalso. apply f_once.
      rewrite <- (map_length fst pre), firstn_app, firstn_all, Nat.sub_diag in Hg.
      cbn in Hg. rewrite app_nil_r in Hg. rewrite map_app. apply in_or_app. now left. }
  2:{ cbn. lia. }
  cbn [Nat.add walk fst snd app]. rewrite F.
  replace (nth_error (map fst pre ++ f :: map fst post) (length pre)) with (Some f).
  2:{ rewrite nth_error_app2 by (rewrite map_length; lia). rewrite map_length, Nat.sub_diag. reflexivity. }
  unfold act at 1. rewrite Nat.eqb_refl. cbn [ofold cexec]. unfold registerEvent. cbn [ckey_eqb].
  destruct R as (_ & Ha & _). unfold list_at in Ha. rewrite P in Ha. destruct (dfind (c_events c) KAlways) as [L|] eqn:Ed.
  2:{ exfalso. now destruct pre. }
  pose proof (remove1_spec L e) as Q. destruct (remove1 L e) as [?|w|]; cbn [bind]; [exfalso; apply He; rewrite <- Ha; apply Q| |contradiction].
  destruct Q as (_ & ->). reflexivity.
Qed.
End Stop.

(** Examples. *)
(** Three permanent actions; action 1 stops itself: action 2 is not called at this tick. *)
Example live_skip_case : match ofold cexec [CReg KAlways (1, None); CReg KAlways (2, None); CReg KAlways (3, None)] cal_new with
  | Ok c => option_map (fun o => match o with Ok s => snd s | _ => [] end)
      (forward_live (fun _ tr g => if Nat.eqb g 1 then [CReg KStop (1, None)] else []) 9 [0; 1] (c, []))
  | _ => None end = Some [1; 3; 2; 3].
Proof. reflexivity. Qed.
(** Action 1, at tick 0, registers action 2 for tick 2 and itself for tick 1, where it does so again. *)
Example live_later_case : match ofold cexec [CReg (KTick 0) (1, None); CPing 9] cal_new with
  | Ok c => option_map (fun o => match o with Ok s => snd s | _ => [] end)
      (forward_live (fun t _ g => if Nat.eqb g 1 then [CReg (KTick (t + 2)) (2, None); CReg (KTick (t + 1)) (1, None)] else []) 9 [0; 1; 2] (c, []))
  | _ => None end = Some [9; 1; 9; 1; 9; 2; 1].
Proof. reflexivity. Qed.

Print Assumptions live_forward.
Print Assumptions live_same_tick.
Print Assumptions live_stop_skips_refuted.
Print Assumptions live_stop_later.
Print Assumptions live_loop_refuted.
Print Assumptions live_quiet.
Print Assumptions live_stop_unknown.
