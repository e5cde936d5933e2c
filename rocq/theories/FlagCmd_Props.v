(** Properties of the command that sets flags (C136). *)
From Coq Require Import String Ascii List Arith ZArith Bool Lia.
From Verif Require Import Base RefName_Model Flags_Model Flags_Props FlagCmd_Model.
Import ListNotations.
Local Open Scope string_scope.
Local Open Scope list_scope.

(** ** Specification *)
Definition blank (c : ascii) : Prop := In (nat_of_ascii c) [9; 10; 11; 12; 13; 32].
(** A text that is accepted: blanks, then only 0, 1 and spaces; and the bits it spells. *)
Definition well_formed (t : string) : Prop :=
  exists a b, t = (a ++ b)%string /\ Forall blank (chars a) /\ Forall (fun c => c = "0" \/ c = "1" \/ c = " ")%char (chars b).
Definition bits (t : string) : list bool :=
  flat_map (fun c => if Ascii.eqb c "0" then [false] else if Ascii.eqb c "1" then [true] else []) (chars t).
(** The bit for the indices that are not spelled is that of the value held. *)
Definition default_bit (v : option Flags) : bool := match v with Some f => outOfRangeFlag f | None => false end.
Definition flag_signal (p : pool) (n : string) : Prop := exists v, p n = Some (SFlags v).

Lemma blank_space c : is_space c = true <-> blank c.
Proof.
  unfold is_space, blank. cbn [In]. cbv zeta. generalize (nat_of_ascii c). intros k. rewrite orb_true_iff, andb_true_iff, !Nat.leb_le, Nat.eqb_eq. lia.
Qed.
Lemma chars_app a b : chars (a ++ b)%string = chars a ++ chars b.
Proof. induction a; cbn; congruence. Qed.
(** Skipping leading blanks: what is left begins with no blank. *)
Lemma skip_split t : exists a, t = (a ++ skip_ws t)%string /\ Forall blank (chars a).
Proof.
  induction t as [|c t (a & E & B)]; [exists ""%string; split; [reflexivity|constructor]|]. cbn. destruct (is_space c) eqn:S.
  - exists (String c a). cbn. split; [congruence|]. constructor; [apply blank_space, S|exact B].
  - exists ""%string. split; [reflexivity|constructor].
Qed.
Lemma legal_ws s : Forall legal (chars s) -> Forall legal (chars (skip_ws s)).
Proof. induction s as [|c s IH]; cbn; [auto|]. intros H. inversion H; subst. destruct (is_space c); [auto|exact H]. Qed.
Lemma skip_app a b : Forall blank (chars a) -> skip_ws (a ++ b) = skip_ws b.
Proof. induction a as [|c a IH]; [reflexivity|]. cbn. intros H. inversion H; subst. rewrite (proj2 (blank_space c)) by assumption. auto. Qed.
Lemma formed_legal t : well_formed t <-> Forall legal (chars (skip_ws t)).
Proof.
  split.
  - intros (a & b & -> & A & B). rewrite skip_app by exact A. apply legal_ws, B.
  - intros H. destruct (skip_split t) as (a & E & A). exists a, (skip_ws t). auto.
Qed.
Lemma bits_blank a : Forall blank (chars a) -> bits a = [].
Proof.
  unfold bits. induction (chars a) as [|c l IH]; [reflexivity|]. intros H. inversion H as [|? ? B F]; subst. cbn. rewrite IH by exact F.
  assert (c <> "0"%char /\ c <> "1"%char) as [N0 N1] by (unfold blank in B; cbn in B; split; intros ->; cbn in B; lia).
  apply Ascii.eqb_neq in N0, N1. rewrite N0, N1. reflexivity.
Qed.
Lemma bits_legal s : Forall legal (chars s) ->
  map (fun c => Ascii.eqb c "1") (filter (fun c => negb (Ascii.eqb c " ")) (chars s)) = bits s.
Proof.
  unfold bits. induction (chars s) as [|c l IH]; [reflexivity|]. intros H. inversion H as [|? ? L F]; subst. destruct L as [->|[->| ->]]; cbn; rewrite IH by exact F; reflexivity.
Qed.
Lemma bits_skip t : bits (skip_ws t) = bits t.
Proof.
  destruct (skip_split t) as (a & E & A). rewrite E at 2. unfold bits. rewrite chars_app, flat_map_app. fold (bits a). rewrite bits_blank by exact A. reflexivity.
Qed.

(** A well formed text gives the signal exactly the bits it spells; the bit of the indices beyond is kept; no other signal changes. *)
Theorem flagset_accepts p c n t v : c <> "help"%string -> p n = Some (SFlags v) -> well_formed t ->
  exists p', cmdFlagSet p c n t = (Ok tt, p', ""%string) /\ p' n = Some (SFlags (Some (mkFlags (bits t) (default_bit v)))) /\
             (forall m, m <> n -> p' m = p m).
Proof.
  intros C E W. apply formed_legal in W. unfold cmdFlagSet. apply String.eqb_neq in C. rewrite C, E, flags_read_accepts by exact W.
  eexists. split; [reflexivity|]. unfold pset. rewrite String.eqb_refl. split.
  - rewrite bits_legal, bits_skip by exact W. destruct v; reflexivity.
  - intros m M. apply String.eqb_neq in M. rewrite M. reflexivity.
Qed.
(** In every other case the command is refused, or prints its help, and no signal changes. *)
Theorem flagset_refuses p c n t : (c = "help" \/ ~ flag_signal p n \/ ~ well_formed t)%string ->
  exists o txt, cmdFlagSet p c n t = (o, p, txt) /\ (c = "help"%string -> o = Ok tt) /\ (c <> "help"%string -> exists w, o = Throw w).
Proof.
  intros H. unfold cmdFlagSet. destruct (String.eqb_spec c "help") as [C|C]; [do 2 eexists; split; [reflexivity|]; split; [auto|congruence]|].
  assert (K : forall o : outcome unit, (exists w, o = Throw w) -> (c = "help"%string -> o = Ok tt) /\ (c <> "help"%string -> exists w, o = Throw w)) by (intros o O; split; [congruence|auto]).
  destruct (p n) as [[v|]|] eqn:E; [|do 2 eexists; split; [reflexivity|apply K; eauto]..].
  destruct H as [H|[H|H]]; [congruence|destruct H; exists v; exact E|].
  set (fl := match v with Some f => f | None => of_bool false end).
  assert (R : fst (read (skip_ws t) fl) = Throw "invalid_argument") by (apply flags_read_rejects; intros F; apply H, formed_legal, F).
  destruct (read (skip_ws t) fl) as [o r]. cbn in R. subst o. do 2 eexists. split; [reflexivity|apply K; eauto].
Qed.

(** After any history of commands, a flag signal spells the last well formed text given for it. *)
Definition accepted (n : string) (x : string * string * string) : Prop := let '(c, m, t) := x in c <> "help"%string /\ m = n /\ well_formed t.
Lemma frun_quiet h : forall p n, Forall (fun x => ~ accepted n x) h -> frun h p n = p n.
Proof.
  induction h as [|[[c m] t] h IH]; intros p n H; [reflexivity|]. inversion H as [|? ? A F]; subst. cbn [frun fold_left].
  change (frun h (snd (fst (cmdFlagSet p c m t))) n = p n). rewrite IH by exact F.
  unfold cmdFlagSet. destruct (String.eqb_spec c "help") as [C|C]; [reflexivity|]. destruct (p m) as [[v|]|] eqn:E; [|reflexivity..].
  set (fl := match v with Some f => f | None => of_bool false end). destruct (read (skip_ws t) fl) as [o r] eqn:R. destruct o; try reflexivity.
  cbn. unfold pset. destruct (String.eqb_spec n m) as [M|M]; [|reflexivity]. subst m. destruct A. split; [exact C|]. split; [reflexivity|]. apply formed_legal.
  destruct (Forall_dec legal (fun c => ltac:(unfold legal; destruct (ascii_dec c "0"), (ascii_dec c "1"), (ascii_dec c " "); auto; right; intros [?|[?|?]]; auto)) (chars (skip_ws t))) as [L|L]; [exact L|].
  apply (flags_read_rejects _ fl) in L. rewrite R in L. discriminate L.
Qed.
Lemma frun_kept h : forall p n v, p n = Some (SFlags v) -> exists w, frun h p n = Some (SFlags w) /\ default_bit w = default_bit v.
Proof.
  induction h as [|[[c m] t] h IH]; intros p n v E; [exists v; auto|]. cbn [frun fold_left].
  assert (K : exists w, snd (fst (cmdFlagSet p c m t)) n = Some (SFlags w) /\ default_bit w = default_bit v).
  { unfold cmdFlagSet. destruct (c =? "help")%string; [exists v; auto|]. destruct (p m) as [[u|]|] eqn:M; [|exists v; auto..].
    set (fl := match u with Some f => f | None => of_bool false end). destruct (read (skip_ws t) fl) as [o r] eqn:R. destruct o; cbn; [|exists v; auto..].
    unfold pset. destruct (String.eqb_spec n m) as [N|N]; [|exists v; auto]. subst m. exists (Some r). split; [reflexivity|].
    unfold read in R. destruct (read_loop (skip_ws t) []) as [? l]. injection R as _ <-. cbn. rewrite E in M. injection M as <-. unfold fl. destruct v; reflexivity. }
  destruct K as (w & K & D). destruct (IH _ _ _ K) as (w' & F & D'). exists w'. split; [exact F|congruence].
Qed.
Theorem flagset_history p h1 c n t h2 v : p n = Some (SFlags v) -> c <> "help"%string -> well_formed t -> Forall (fun x => ~ accepted n x) h2 ->
  frun (h1 ++ (c, n, t) :: h2) p n = Some (SFlags (Some (mkFlags (bits t) (default_bit v)))).
Proof.
  intros E C W Q. unfold frun. rewrite fold_left_app. fold (frun h1 p). destruct (frun_kept h1 p n v E) as (w & K & D). cbn [fold_left].
  destruct (flagset_accepts (frun h1 p) c n t w C K W) as (p' & R & V & _). rewrite R. cbn [fst snd]. fold (frun h2 p').
  rewrite frun_quiet by exact Q. rewrite V, D. reflexivity.
Qed.

(** Finding: the form the help announces, {#&|}START:END, is refused whatever the bounds. *)
Theorem flagset_help_refuted p c n k start stop : c <> "help"%string -> In k ["#"; "&"; "|"]%string -> flag_signal p n ->
  cmdFlagSet p c n (k ++ start ++ ":" ++ stop)%string = (Throw "SYNTAX_ERROR", p, ""%string).
Proof.
  intros C K (v & E). unfold cmdFlagSet. apply String.eqb_neq in C. rewrite C, E.
  cbn in K. destruct K as [<-|[<-|[<-|[]]]]; reflexivity.
Qed.
(** And so is the form without the leading character. *)
Theorem flagset_range_refuted p c n start stop : c <> "help"%string -> flag_signal p n -> In ":"%char (chars stop) ->
  exists w, cmdFlagSet p c n (start ++ stop)%string = (Throw w, p, ""%string).
Proof.
  intros C (v & E) I. unfold cmdFlagSet. apply String.eqb_neq in C. rewrite C, E. set (fl := match v with Some f => f | None => of_bool false end).
  assert (R : fst (read (skip_ws (start ++ stop)) fl) = Throw "invalid_argument").
  { apply flags_read_rejects. intros F. apply formed_legal in F as (a & b & H & A & B).
    assert (J : In ":"%char (chars a ++ chars b)) by (rewrite <- chars_app, <- H, chars_app; apply in_or_app; right; exact I).
    apply in_app_or in J as [J|J]; [rewrite Forall_forall in A; specialize (A _ J); unfold blank in A; cbn in A; lia|].
    rewrite Forall_forall in B. destruct (B _ J) as [X|[X|X]]; discriminate X. }
  destruct (read (skip_ws (start ++ stop)) fl) as [o r]. cbn in R. subst o. eexists. reflexivity.
Qed.

Example flagset_example :
  let p := pset (pset (fun _ => None) "task.sel" (SFlags (Some (mkFlags [true; true] true)))) "task.error" SOther in
  let h := [("set", "task.sel", "1x0"); ("set", "task.sel", " 1 01"); ("set", "task.error", "111"); ("help", "task.sel", "0")]%string in
  well_formed " 1 01" /\ frun h p "task.sel"%string = Some (SFlags (Some (mkFlags [true; false; true] true))).
Proof. split; [|reflexivity]. exists " "%string, "1 01"%string. split; [reflexivity|]. split; cbn [chars]; repeat (apply Forall_cons; [unfold blank; cbn; auto 10|]); apply Forall_nil. Qed.

Print Assumptions flagset_accepts.
Print Assumptions flagset_refuses.
Print Assumptions flagset_history.
Print Assumptions flagset_help_refuted.
Print Assumptions flagset_range_refuted.
