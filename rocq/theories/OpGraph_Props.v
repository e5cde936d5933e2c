(** Properties of graphs of operator entities (C131). *)
From Coq Require Import String List Arith ZArith Bool Lia.
From Verif Require Import Base Deps_Model Deps_Proofs Deps_Props OpGraph_Model Operator_Model.
Import ListNotations.
Local Open Scope string_scope. Local Open Scope list_scope.

Section Props.
Context {V P : Type}.
Implicit Types (g : list (opent V P)) (s : gstate V P).
Notation outs g := (map oname g).

(** ** Specification *)
(** A graph: names are distinct and an entity is plugged into signals outside or into entities before it (no loop). *)
Definition wired g : Prop :=
  NoDup (outs g) /\ forall pre e post, g = pre ++ e :: post -> forall y, In y (oplugs e) -> In y (outs g) -> In y (outs pre).
(** Values are given to signals outside; a reading brings up to date what its outputs are plugged into. *)
Definition gcmd_ok g (c : gcmd V P) : Prop :=
  match c with
  | GSet i _ => ~ In i (outs g)
  | GCommand _ _ => True
  | GRead o _ => forall e y, In e g -> o (oname e) = true -> In y (oplugs e) -> In y (outs g) -> o y = true
  end.
(** The output of an entity is its operator applied to what its inputs hold. *)
Definition up_to_date s (e : opent V P) : Prop := holds s (oname e) = oop e (params s (oname e)) (map (holds s) (oplugs e)).
Definition is_command (c : gcmd V P) : bool := match c with GCommand _ _ => true | _ => false end.
Definition is_reading (c : gcmd V P) : bool := match c with GRead _ _ => true | _ => false end.

(** ** Proofs *)
Lemma names_net g : names (net_of g) = outs g.
Proof. unfold names, net_of. rewrite map_map. reflexivity. Qed.
Lemma wired_wf g : wired g -> wf (net_of g).
Proof.
  intros [N W]. split; [rewrite names_net; exact N|]. intros pre x post E y Hy Hn. rewrite names_net in Hn.
  unfold net_of in E. apply map_eq_app in E as (p1 & p2 & Eg & Ep & E2). destruct p2 as [|e p2]; [discriminate|]. cbn in E2. injection E2 as Ex _.
  subst pre x. cbn in Hy. fold (net_of p1). rewrite names_net. apply (W p1 e p2 Eg); [apply in_app_or in Hy; intuition|exact Hn].
Qed.
Lemma find_ent g e : NoDup (outs g) -> In e g -> find (fun x => String.eqb (oname x) (oname e)) g = Some e.
Proof.
  induction g as [|a g IH]; cbn; [easy|]. intros N H. inversion N as [|? ? N1 N2]; subst. destruct H as [->|H]; [now rewrite String.eqb_refl|].
  destruct (String.eqb_spec (oname a) (oname e)) as [E|_]; [|now apply IH]. exfalso. apply N1. rewrite E. now apply in_map.
Qed.
Lemma compute_ent g par d e env : NoDup (outs g) -> In e g -> compute g par d (oname e) env = oop e (par (oname e)) (map env (oplugs e)).
Proof. intros N H. unfold compute. now rewrite find_ent. Qed.
Lemma respects_net g par d : NoDup (outs g) -> respects (compute g par d) (net_of g).
Proof.
  intros N x v w Hx H. unfold net_of in Hx. apply in_map_iff in Hx as (e & <- & He). cbn in *. rewrite !compute_ent by assumption. f_equal. apply map_ext_in. exact H.
Qed.
Lemma complete_net g : forall o, complete (net_of g) o.
Proof.
  intros o x _ i H. induction H as [x i Hx Hi Hn|x y i Hx Hy _ IH].
  - apply reach_input; [exact Hx| |exact Hn]. unfold net_of in Hx. apply in_map_iff in Hx as (e & <- & _). exact Hi.
  - eapply reach_out; [exact Hx| |exact IH]. unfold net_of in Hx. apply in_map_iff in Hx as (e & <- & _). exact Hy.
Qed.
Lemma set_ok g i (v : V) : ~ In i (outs g) -> event_ok (net_of g) (Ev [(i, v)] (fun _ => false) (fun _ => false)).
Proof. intro H. split; [intros p [<-|[]]; rewrite names_net; exact H|discriminate]. Qed.
Lemma read_ok g o x : gcmd_ok g (GRead o x) -> event_ok (V := V) (net_of g) (Ev [] o x).
Proof.
  intro H. split; [easy|]. cbn. intros a y Ha To Hy Hn. rewrite names_net in Hn. unfold net_of in Ha. apply in_map_iff in Ha as (e & <- & He). cbn in *.
  apply (H e y He To); [apply in_app_or in Hy; intuition|exact Hn].
Qed.
(** Giving a value computes nothing, whatever the functions. *)
Lemma pass_none (f : string -> (string -> V) -> V) n e (s : state V) : (forall x, touch e x = false) -> fold_left (refresh f e) n s = s.
Proof. intro H. induction n as [|x n IH]; cbn; [reflexivity|]. unfold refresh at 2. rewrite H. exact IH. Qed.

(** Histories whose commands come before the first reading are histories of the library with the operators so set. *)
Definition ev_of (c : gcmd V P) : list (event V) :=
  match c with GSet i v => [Ev [(i, v)] (fun _ => false) (fun _ => false)] | GCommand _ _ => [] | GRead o x => [Ev [] o x] end.
Lemma run_params g d cs : forall s, forallb (fun c => negb (is_command c)) cs = true ->
  params (fold_left (gexec g d) cs s) = params s /\
  sigs (fold_left (gexec g d) cs s) = fold_left (occur (compute g (params s) d) (net_of g)) (flat_map ev_of cs) (sigs s).
Proof.
  induction cs as [|c cs IH]; intros s H; [split; reflexivity|]. cbn in H. apply andb_true_iff in H as [H1 H2]. cbn [fold_left flat_map].
  destruct (IH (gexec g d s c) H2) as (A & B). rewrite A, B, fold_left_app. destruct c; cbn in *; try discriminate H1; split; reflexivity.
Qed.
Lemma run_setup g d f cs : forall s, forallb (fun c => negb (is_reading c)) cs = true ->
  sigs (fold_left (gexec g d) cs s) = fold_left (occur f (net_of g)) (flat_map ev_of cs) (sigs s).
Proof.
  induction cs as [|c cs IH]; intros s H; [reflexivity|]. cbn in H. apply andb_true_iff in H as [H1 H2]. cbn [fold_left flat_map].
  rewrite (IH _ H2), fold_left_app. destruct c; cbn in *; try discriminate H1; [|reflexivity]. unfold occur. cbn [sets].
  rewrite !pass_none by reflexivity. reflexivity.
Qed.
Lemma events_ok g cs : Forall (gcmd_ok g) cs -> Forall (event_ok (net_of g)) (flat_map ev_of cs).
Proof.
  induction 1 as [|c cs H _ IH]; cbn; [constructor|]. apply Forall_app. split; [|exact IH].
  destruct c; cbn; repeat constructor; try (now apply set_ok); now apply read_ok.
Qed.

(** After the operators have been set, whatever values are given and whatever is read: each output read is its operator applied to
    what its inputs hold, all through the graph. *)
Theorem operator_graph : forall g d v0 p0 setup cs o x,
  wired g -> Forall (gcmd_ok g) (setup ++ cs ++ [GRead o x]) ->
  forallb (fun c => negb (is_reading c)) setup = true -> forallb (fun c => negb (is_command c)) cs = true ->
  let s := grun g d v0 p0 (setup ++ cs ++ [GRead o x]) in
  forall e, In e g -> o (oname e) = true -> up_to_date s e.
Proof.
  intros g d v0 p0 setup cs o x W F Hs Hc s. set (s1 := grun g d v0 p0 setup). set (f := compute g (params s1) d).
  assert (Hc' : forallb (fun c => negb (is_command c)) (cs ++ [GRead o x]) = true) by (rewrite forallb_app, Hc; reflexivity).
  destruct (run_params g d (cs ++ [GRead o x]) s1 Hc') as (A & B).
  assert (ES : sigs s = history f (net_of g) v0 (flat_map ev_of (setup ++ cs) ++ [Ev [] o x])).
  { unfold s, grun. rewrite fold_left_app. fold (grun g d v0 p0 setup). fold s1. rewrite B. unfold history.
    unfold s1 at 2, grun. rewrite (run_setup g d f setup _ Hs). fold f. rewrite <- fold_left_app. f_equal.
    rewrite !flat_map_app. cbn. rewrite <- app_assoc. reflexivity. }
  assert (EP : params s = params s1) by (unfold s, grun; rewrite fold_left_app; exact A).
  assert (FR : forall e, In e g -> o (oname e) = true -> val (sigs s) (oname e) = ideal f (net_of g) (val (sigs s)) (oname e)).
  { intros e He To. rewrite ES. apply outputs_fresh.
    - now apply wired_wf.
    - apply respects_net, W.
    - apply events_ok. rewrite app_assoc in F. apply Forall_app in F. apply F.
    - apply read_ok. apply Forall_app in F as [_ F]. apply Forall_app in F as [_ F]. now inversion F.
    - rewrite names_net. now apply in_map.
    - apply complete_net.
    - exact To. }
  intros e He To. unfold up_to_date, holds. rewrite (FR e He To).
  pose proof (ideal_char f (net_of g) (wired_wf g W) (respects_net g (params s1) d (proj1 W)) (val (sigs s)) _ (in_map _ _ _ He)) as I. cbn in I. rewrite I.
  unfold f at 1. rewrite compute_ent by (assumption || apply W). rewrite EP. f_equal. apply map_ext_in. intros y Hy.
  destruct (in_dec string_dec y (outs g)) as [Hn|Hn].
  - apply in_map_iff in Hn as (e' & <- & He'). symmetry. apply FR; [exact He'|].
    apply Forall_app in F as [_ F]. apply Forall_app in F as [_ F]. inversion F as [|? ? K _]; subst. apply (K e (oname e') He To Hy). now apply in_map.
  - apply ideal_input. now rewrite names_net.
Qed.

(** In particular for the two kinds of entities. *)
Theorem operator_graph_entities : forall g d v0 p0 setup cs o x n a b (op1 : P -> V -> V) (op2 : P -> V -> V -> V),
  wired g -> Forall (gcmd_ok g) (setup ++ cs ++ [GRead o x]) ->
  forallb (fun c => negb (is_reading c)) setup = true -> forallb (fun c => negb (is_command c)) cs = true ->
  let s := grun g d v0 p0 (setup ++ cs ++ [GRead o x]) in o n = true ->
  (In (unary n op1 a d) g -> holds s n = op1 (params s n) (holds s a)) /\
  (In (binary n op2 a b d) g -> holds s n = op2 (params s n) (holds s a) (holds s b)).
Proof.
  intros g d v0 p0 setup cs o x n a b op1 op2 W F Hs Hc s To.
  split; intro H; exact (operator_graph g d v0 p0 setup cs o x W F Hs Hc _ H To).
Qed.

(** The parameters of an operator are those of its last command. *)
Definition parameter (x : string) (p : P) (c : gcmd V P) : P := match c with GCommand y q => if String.eqb x y then q else p | _ => p end.
Theorem operator_parameters : forall g d v0 p0 cs x,
  params (grun g d v0 p0 cs) x = fold_left (parameter x) cs (p0 x).
Proof.
  intros g d v0 p0 cs x. unfold grun. change (p0 x) with (params (GState (start v0) p0) x). generalize (GState (start v0) p0).
  induction cs as [|c cs IH]; intro s; [reflexivity|]. cbn [fold_left]. rewrite IH. f_equal. destruct c; reflexivity.
Qed.

(** *** Commands after a reading *)
Lemma occur_now f n (s : state V) e : now (occur f n s e) = S (now s).
Proof. unfold occur. rewrite pass_now, assign_now. reflexivity. Qed.
Lemma occur_stamps f n e (s : state V) : wf n -> respects f n -> event_ok n e -> (forall y, stamp s y <= now s) -> forall y, stamp (occur f n s e) y <= now (occur f n s e).
Proof.
  intros W R K H y. rewrite occur_now. assert (A : forall z, stamp (assign (tick s) (sets e)) z <= S (now s)).
  { intro z. destruct (in_dec string_dec z (map fst (sets e))) as [I|I]; [rewrite (assign_set _ _ _ I); reflexivity|].
    rewrite (proj2 (assign_other _ _ _ I)). cbn. specialize (H z). lia. }
  unfold occur. destruct (in_dec string_dec y (names n)) as [I|I].
  - apply names_in in I as (x & Hx & <-). destruct (pass_char f n W R e (assign (tick s) (sets e)) x K Hx) as [(_ & _ & E)|(_ & _ & E)]; cbn zeta in E; rewrite E.
    + rewrite assign_now. cbn. lia.
    + apply A.
  - rewrite (proj2 (pass_other f e n _ _ I)). apply A.
Qed.
Lemma run_stamps g d v0 p0 cs : wired g -> Forall (gcmd_ok g) cs ->
  let s := sigs (grun g d v0 p0 cs) in forall y, stamp s y <= now s.
Proof.
  intros W. induction cs as [|c cs IH] using rev_ind; intros F; [cbn; lia|]. apply Forall_app in F as [F K]. inversion K as [|? ? K1 _]; subst.
  specialize (IH F). unfold grun in *. rewrite fold_left_app. cbn [fold_left]. destruct c as [i v|n p|o x]; cbn [gexec sigs] in *.
  - apply occur_stamps; auto using wired_wf, set_ok. apply respects_net, W.
  - exact IH.
  - apply occur_stamps; auto using wired_wf, read_ok. apply respects_net, W.
Qed.

(** A command is taken into account at the first reading after one of the inputs of the entity got a value, whatever came before. *)
Theorem operator_command_then_input : forall g d v0 p0 cs i v o x e,
  wired g -> Forall (gcmd_ok g) (cs ++ [GSet i v; GRead o x]) -> In e g -> In i (oplugs e) -> o (oname e) = true ->
  up_to_date (grun g d v0 p0 (cs ++ [GSet i v; GRead o x])) e.
Proof.
  intros g d v0 p0 cs i v o x e W F He Hi To. apply Forall_app in F as [F K]. inversion K as [|? ? K1 K2]; subst. inversion K2 as [|? ? K3 _]; subst.
  pose proof (run_stamps g d v0 p0 cs W F) as B. cbn zeta in B. cbn in K1.
  unfold grun in *. rewrite fold_left_app. cbn [fold_left]. set (s := fold_left (gexec g d) cs _) in *. cbn [gexec params sigs].
  set (f := compute g (params s) d). assert (R : respects f (net_of g)) by (apply respects_net, W). assert (Wn := wired_wf g W).
  unfold up_to_date, holds. cbn [sigs params]. fold f. set (s1 := occur f (net_of g) (sigs s) _).
  change (occur f (net_of g) s1 (Ev [] o x)) with (fold_left (refresh f (Ev [] o x)) (net_of g) (tick s1)).
  assert (E1 : s1 = set_at (tick (sigs s)) i v) by (unfold s1, occur; cbn [sets]; rewrite pass_none by reflexivity; reflexivity).
  destruct (pass_char f (net_of g) Wn R (Ev [] o x) (tick s1) _ (read_ok _ _ _ K3) (in_map _ _ _ He)) as [(_ & E & _)|(N & _)].
  - cbn in E.
    rewrite E. unfold f at 1. rewrite compute_ent by (assumption || apply W). reflexivity.
  - exfalso. apply N. cbn. split; [exact To|]. right. left. exists i. split; [exact Hi|].
    rewrite (proj2 (pass_other f (Ev [] o x) (net_of g) (tick s1) i ltac:(rewrite names_net; exact K1))). cbn. rewrite E1. cbn. rewrite String.eqb_refl.
    destruct (String.eqb_spec (oname e) i) as [Q|_]; [exfalso; apply K1; rewrite <- Q; now apply in_map|]. specialize (B (oname e)). lia.
Qed.

(** A command after a reading is not seen by the readings that follow, as long as no signal gets a value: whatever the operator and
    its new parameters, all outputs read keep the values of the former parameters. *)
Theorem operator_command_stale_refuted : forall g d v0 p0 cs o x n p,
  wired g -> Forall (gcmd_ok g) (cs ++ [GRead o x]) ->
  let s := grun g d v0 p0 (cs ++ [GRead o x]) in
  let s' := grun g d v0 p0 (cs ++ [GRead o x; GCommand n p; GRead o (fun _ => false)]) in
  params s' n = p /\ forall y, holds s' y = holds s y.
Proof.
  intros g d v0 p0 cs o x n p W F s s'. apply Forall_app in F as [F K]. inversion K as [|? ? K1 _]; subst.
  pose proof (run_stamps g d v0 p0 cs W F) as B. cbn zeta in B. unfold s, s', grun in *. rewrite !fold_left_app. cbn [fold_left].
  set (s0 := fold_left (gexec g d) cs _) in *. cbn [gexec params sigs]. split; [now rewrite String.eqb_refl|]. intro y. unfold holds. cbn [sigs].
  set (f := compute g (params s0) d). set (f' := compute g _ d). assert (Wn := wired_wf g W).
  assert (R : respects f (net_of g)) by (apply respects_net, W). assert (R' : respects f' (net_of g)) by (apply respects_net, W).
  set (s1 := occur f (net_of g) (sigs s0) (Ev [] o x)).
  assert (B1 : forall z, stamp s1 z <= now s1) by (apply occur_stamps; auto using read_ok).
  (* after the first reading no output read is older than what it declares *)
  assert (D1 : forall a, In a (net_of g) -> o (s_name a) = true -> stamp s1 (s_name a) <> 0 /\ forall dd, In dd (s_decl a) -> stamp s1 dd <= stamp s1 (s_name a)).
  { intros a Ha To. destruct (pass_char f (net_of g) Wn R (Ev [] o x) (tick (sigs s0)) a (read_ok _ _ _ K1) Ha) as [(_ & _ & E)|(N & _ & E)]; cbn zeta in E;
      change (fold_left (refresh f (Ev [] o x)) (net_of g) (tick (sigs s0))) with s1 in *.
    - cbn in E. rewrite E. split; [lia|]. intros dd _. specialize (B1 dd). unfold s1 at 2 in B1. rewrite occur_now in B1. lia.
    - rewrite E. split.
      + intro Z. apply N. split; [exact To|]. left. exact Z.
      + intros dd Hd. destruct (le_lt_dec (stamp s1 dd) (stamp (tick (sigs s0)) (s_name a))) as [L|L]; [exact L|]. exfalso. apply N. split; [exact To|].
        right. left. exists dd. split; assumption. }
  assert (KO : event_ok (V := V) (net_of g) (Ev [] o (fun _ => false))) by (apply read_ok; exact K1).
  unfold occur. cbn [sets]. change (assign (tick s1) []) with (tick s1). set (s2 := fold_left _ (net_of g) (tick s1)).
  destruct (in_dec string_dec y (names (net_of g))) as [I|I]; [|unfold s2; rewrite (proj1 (pass_other f' _ _ _ _ I)); reflexivity].
  apply names_in in I as (a & Ha & <-).
  assert (Q : forall a, In a (net_of g) -> val s2 (s_name a) = val s1 (s_name a) /\ stamp s2 (s_name a) = stamp s1 (s_name a)).
  { apply (wf_ind (net_of g) _ Wn). intros b Hb IH. destruct (pass_char f' (net_of g) Wn R' (Ev [] o (fun _ => false)) (tick s1) b KO Hb) as [(A & _)|(_ & E1 & E2)]; cbn zeta in *.
    - exfalso. destruct A as (To & A). cbn in To. destruct (D1 b Hb To) as (Z & L). destruct A as [A|[(dd & Hd & A)|A]]; [exact (Z A)| |discriminate A].
      change (fold_left (refresh f' (Ev [] o (fun _ => false))) (net_of g) (tick s1)) with s2 in A. cbn [tick stamp] in A. specialize (L dd Hd).
      assert (stamp s2 dd = stamp s1 dd); [|lia]. destruct (in_dec string_dec dd (names (net_of g))) as [I|I].
      + apply names_in in I as (c & Hc & <-). apply (IH c Hc). apply in_or_app. now left.
      + unfold s2. rewrite (proj2 (pass_other f' _ _ _ _ I)). reflexivity.
    - split; assumption. }
  exact (proj1 (Q a Ha)).
Qed.
End Props.

(** ** A selector and the sum of two vectors, on integers *)
Definition vec := outcome (list Z).
Definition select (s : selecter) (m : vec) : vec := let* m := m in selecterOp 0%Z s m.
Definition plus (_ : selecter) (a b : vec) : vec := let* a := a in let* b := b in Ok (map (fun p => (fst p + snd p)%Z) (combine a b)).
Definition two : list (opent vec selecter) := [unary "sel" select "v" UB; binary "sum" plus "sel" "w" UB].
Definition all (_ : string) := true.
Definition run2 := grun two UB (fun _ : string => Ok []) (fun _ => selecter0).

(** The hypotheses are met, and the selection changed after a reading is not seen until a value is given. *)
Example operator_graph_example :
  let setup := [GCommand "sel" (setBounds 0 2 selecter0); GSet "v" (Ok [1; 2; 3]%Z); GSet "w" (Ok [10; 20]%Z)] in
  let change := [GCommand "sel" (setBounds 1 3 selecter0)] in
  wired two /\ Forall (gcmd_ok two) (setup ++ [GRead all all] ++ change ++ [GRead all (fun _ => false)] ++ [GSet "v" (Ok [4; 5; 6]%Z)] ++ [GRead all all]) /\
  holds (run2 (setup ++ [GRead all all])) "sum" = Ok [11; 22]%Z /\
  holds (run2 (setup ++ [GRead all all] ++ change ++ [GRead all (fun _ => false)])) "sum" = Ok [11; 22]%Z /\
  holds (run2 (setup ++ [GRead all all] ++ change ++ [GSet "v" (Ok [4; 5; 6]%Z)] ++ [GRead all (fun _ => false)])) "sum" = Ok [15; 26]%Z.
Proof.
  cbv zeta. split; [split|split; [|repeat split; vm_compute; reflexivity]].
  - repeat constructor; cbn; intuition discriminate.
  - intros pre e post E y Hy Hn. destruct pre as [|a [|b [|c pre]]]; cbn in E; try discriminate E.
    + injection E as <- _. cbn in Hy, Hn. destruct Hy as [<-|[]]. intuition discriminate.
    + injection E as <- <- _. cbn in *. destruct Hy as [<-|[<-|[]]]; [now left|]. intuition discriminate.
  - repeat constructor; cbn; intuition discriminate.
Qed.

Print Assumptions operator_graph.
Print Assumptions operator_command_then_input.
Print Assumptions operator_command_stale_refuted.
Print Assumptions operator_graph_entities.
Print Assumptions operator_parameters.
