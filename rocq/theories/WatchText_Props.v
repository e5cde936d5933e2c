(** Report of the stop watch (C126). *)
From Coq Require Import String Ascii List Arith Lia ZArith Bool Reals Lra Psatz Sorting.Sorted.
From Verif Require Import Base SMap Watch_Model Watch_Props RefName_Model RefName_Props HistDump_Props WatchText_Model.
Import ListNotations.
Local Open Scope R_scope.
Local Open Scope string_scope.
Local Open Scope list_scope.

(** * Specification *)
Definition newline := ascii_of_nat 10.
Definition tabulation := ascii_of_nat 9.
(** A text without newline nor tabulation. *)
Definition clean (s : string) : Prop := count newline s = 0%nat /\ has tabulation s = false.
Fixpoint blanks (k : nat) : string := match k with O => "" | S k => String " " (blanks k) end.
(** The name, followed by the blanks that make it eighty characters long. *)
Definition in80 (n : string) : string := (n ++ blanks (80 - String.length n))%string.
(** Milliseconds. *)
Definition ms (x : R) : option R := Some (x * 1000).
Definition header := "*** PROFILING RESULTS [ms] (min - avg - max - lastTime - nSamples - totalTime) ***".
(** A name has been started while the watch was on. *)
Fixpoint started (n : string) (on : bool) (cs : list wcmd) : Prop :=
  match cs with
  | [] => False
  | WStart n' _ :: r => (on = true /\ n' = n) \/ started n on r
  | WTurn b :: r => started n b r
  | _ :: r => started n on r
  end.
Fixpoint is_on (on : bool) (cs : list wcmd) : bool :=
  match cs with [] => on | WTurn b :: r => is_on b r | _ :: r => is_on on r end.

(** * Names *)
Lemma keys_step w c n : msorted scmp (w_recs w) ->
  msorted scmp (w_recs (wexec w c)) /\
  w_active (wexec w c) = (match c with WTurn b => b | _ => w_active w end) /\
  (mfind scmp (w_recs (wexec w c)) n <> None <->
   mfind scmp (w_recs w) n <> None \/ (w_active w = true /\ exists t, c = WStart n t)).
Proof.
  intros Hs. destruct c as [n' t|n' t|n' t|n'| |b|m]; cbn [wexec].
  - unfold start. destruct (w_active w) eqn:Ea; cbn [negb fst].
    2:{ split; [exact Hs|]. split; [exact Ea|]. split; [auto|]. intros [H|[H _]]; [exact H|discriminate]. }
    set (p := match mfind scmp (w_recs w) n' with Some p => p | None => perf0 end).
    assert (G : forall q, msorted scmp (mset scmp (w_recs w) n' q) /\
      (mfind scmp (mset scmp (w_recs w) n' q) n <> None <-> mfind scmp (w_recs w) n <> None \/ (true = true /\ exists t0, WStart n' t = WStart n t0))).
    { intros q. split; [now apply set_sorted|]. rewrite find_set by exact Hs. destruct (String.eqb_spec n' n) as [->|Hn].
      - split; [intros _; right; split; eauto|discriminate].
      - split; [auto|]. intros [H|[_ [t0 H]]]; [exact H|congruence]. }
    destruct (take_time w t); cbn [fst set_recs w_recs w_active]; (split; [apply G|]; split; [exact Ea|apply G]).
  - assert (X : forall P : Prop, P <-> P \/ (w_active w = true /\ exists t0, WStop n' t = WStart n t0)) by (intros; split; [auto|intros [H|[_ [? H]]]; [exact H|discriminate]]).
    unfold stop. destruct (w_active w) eqn:Ea; cbn [negb fst]; [|split; [exact Hs|split; [exact Ea|apply X]]].
    destruct (take_time w t); cbn [fst]; try (split; [exact Hs|split; [exact Ea|apply X]]).
    destruct (mfind scmp (w_recs w) n') as [p|] eqn:F; cbn [fst]; [|split; [exact Hs|split; [exact Ea|apply X]]].
    destruct (Req_EM_T (w_start p) 0); cbn [fst set_recs w_recs w_active]; [split; [exact Hs|split; [exact Ea|apply X]]|].
    split; [now apply set_sorted|]. split; [exact Ea|]. rewrite find_set by exact Hs. rewrite <- X.
    destruct (String.eqb_spec n' n) as [->|Hn]; [rewrite F; split; discriminate|tauto].
  - assert (X : forall P : Prop, P <-> P \/ (w_active w = true /\ exists t0, WPause n' t = WStart n t0)) by (intros; split; [auto|intros [H|[_ [? H]]]; [exact H|discriminate]]).
    unfold pause. destruct (w_active w) eqn:Ea; cbn [negb fst]; [|split; [exact Hs|split; [exact Ea|apply X]]].
    destruct (mfind scmp (w_recs w) n') as [p|] eqn:F; cbn [fst]; [|split; [exact Hs|split; [exact Ea|apply X]]].
    destruct (Req_EM_T (w_start p) 0); cbn [fst set_recs w_recs w_active]; [split; [exact Hs|split; [exact Ea|apply X]]|].
    split; [now apply set_sorted|]. split; [exact Ea|]. rewrite find_set by exact Hs. rewrite <- X.
    destruct (String.eqb_spec n' n) as [->|Hn]; [rewrite F; split; discriminate|tauto].
  - assert (X : forall P : Prop, P <-> P \/ (w_active w = true /\ exists t0, WReset n' = WStart n t0)) by (intros; split; [auto|intros [H|[_ [? H]]]; [exact H|discriminate]]).
    destruct (w_active w) eqn:Ea.
    + destruct (reset_find w n' Ea Hs) as ([_ A] & B & C). split; [exact A|]. split; [exact B|]. rewrite C, <- X.
      destruct (mfind scmp (w_recs w) n); [split; discriminate|tauto].
    + unfold reset. rewrite Ea. split; [exact Hs|]. split; [exact Ea|apply X].
  - assert (X : forall P : Prop, P <-> P \/ (w_active w = true /\ exists t0, WResetAll = WStart n t0)) by (intros; split; [auto|intros [H|[_ [? H]]]; [exact H|discriminate]]).
    unfold reset_all. destruct (w_active w) eqn:Ea; cbn [negb fst].
    + destruct (reset_many (map fst (w_recs w)) w Ea Hs) as ([_ A] & B & C). split; [exact A|]. split; [exact B|]. rewrite C, <- X.
      destruct (mfind scmp (w_recs w) n); [split; discriminate|tauto].
    + split; [exact Hs|]. split; [exact Ea|apply X].
  - split; [exact Hs|]. split; [reflexivity|]. split; [auto|intros [H|[_ [? H]]]; [exact H|discriminate]].
  - split; [exact Hs|]. split; [reflexivity|]. split; [auto|intros [H|[_ [? H]]]; [exact H|discriminate]].
Qed.
Lemma keys_run n cs : forall w, msorted scmp (w_recs w) ->
  msorted scmp (w_recs (fold_left wexec cs w)) /\ w_active (fold_left wexec cs w) = is_on (w_active w) cs /\
  (mfind scmp (w_recs (fold_left wexec cs w)) n <> None <-> mfind scmp (w_recs w) n <> None \/ started n (w_active w) cs).
Proof.
  induction cs as [|c cs IH]; intros w Hs; cbn [fold_left started is_on]; [tauto|].
  destruct (keys_step w c n Hs) as (A & B & C). destruct (IH (wexec w c) A) as (D & E & F).
  split; [exact D|]. rewrite B in E, F. rewrite F, C. clear -E.
  destruct c; (split; [exact E|]).
  - split; [intros [[H|[H1 [t0 H2]]]|H]; [auto| |auto]|intros [H|[[H1 H2]|H]]; [auto| |auto]].
    + injection H2 as -> _. auto.
    + subst. left. right. eauto.
  - split; [intros [[H|[_ [? H]]]|H]; [auto|discriminate|auto]|intros [H|H]; auto].
  - split; [intros [[H|[_ [? H]]]|H]; [auto|discriminate|auto]|intros [H|H]; auto].
  - split; [intros [[H|[_ [? H]]]|H]; [auto|discriminate|auto]|intros [H|H]; auto].
  - split; [intros [[H|[_ [? H]]]|H]; [auto|discriminate|auto]|intros [H|H]; auto].
  - split; [intros [[H|[_ [? H]]]|H]; [auto|discriminate|auto]|intros [H|H]; auto].
  - split; [intros [[H|[_ [? H]]]|H]; [auto|discriminate|auto]|intros [H|H]; auto].
Qed.

Section Report.
Variables (fmt : nat -> option R -> string) (fmti : nat -> string).
Hypothesis fmt_clean : forall p x, clean (fmt p x).
Hypothesis fmti_clean : forall k, clean (fmti k).

Lemma pad_blanks n : pad n = blanks (80 - String.length n).
Proof.
  unfold pad, MAX_NAME.
  assert (G : forall k s a, fold_left (fun s _ => (s ++ " ")%string) (seq a k) s = (s ++ blanks k)%string).
  { induction k as [|k IH]; intros s a; cbn [seq fold_left blanks]; [now induction s; cbn; congruence|]. rewrite IH, app_s. reflexivity. }
  apply (G _ ""%string).
Qed.
Lemma clean_app a b : clean a -> clean b -> clean (a ++ b)%string.
Proof. intros [A1 A2] [B1 B2]. split; [rewrite count_app; lia|rewrite has_app, A2; exact B2]. Qed.
Lemma clean_blanks k : clean (blanks k).
Proof. induction k as [|k IH]; [split; reflexivity|]. destruct IH. split; [exact H|exact H0]. Qed.
Lemma cut_tab a b : has tabulation a = false -> cut tabulation (a ++ tb ++ b)%string = a :: cut tabulation b.
Proof. intros H. change (tb ++ b)%string with (String tabulation b). now apply cut_sep. Qed.

(** The two lines of a measure. *)
Definition line1 (n : string) (p : nat) (mn : R) (av : option R) (mx la : R) (k : nat) : list string :=
  [(in80 n ++ fmt p (ms mn))%string; fmt p (option_map (fun x => x * 1000) av); fmt p (ms mx); fmt p (ms la); fmti k].

Definition shown (w : watch) (n : string) (p : nat) (ls : list string) : Prop :=
  exists mn av mx la to k l, get_min w n = Ok mn /\ get_average w n = Ok av /\ get_max w n = Ok mx /\ get_last w n = Ok la /\ get_total w n = Ok to /\
    getter w_stops w n = Ok k /\ cut tabulation l = line1 n p mn av mx la k /\ ls = [l; fmt p (ms to)].
Lemma report_shown w n p : w_active w = true -> mfind scmp (w_recs w) n <> None -> clean n ->
  exists text ls, report fmt fmti w n p = Ok text /\ shown w n p ls /\ forall b, cut_lines (text ++ b)%string = ls ++ cut_lines b.
Proof.
  intros Ha Hf Hn. unfold report. rewrite Ha. cbn [negb]. destruct (mfind scmp (w_recs w) n) as [r|] eqn:F; [|contradiction].
  set (av := if (w_stops r =? 0)%nat then None else Some (w_total r / INR (w_stops r))).
  set (l := (in80 n ++ fmt p (ms (w_min r)) ++ tb ++ fmt p (option_map (fun x => x * 1000) av) ++ tb ++ fmt p (ms (w_max r)) ++ tb ++
             fmt p (ms (w_last r)) ++ tb ++ fmti (w_stops r))%string).
  eexists _, [l; fmt p (ms (w_total r))]. split; [reflexivity|]. split.
  - exists (w_min r), av, (w_max r), (w_last r), (w_total r), (w_stops r), l.
    unfold get_min, get_average, get_max, get_last, get_total, getter. rewrite F. do 6 (split; [reflexivity|]). split; [|reflexivity].
    unfold l, line1. rewrite <- (app_s (in80 n)). rewrite !cut_tab by (try apply fmt_clean; unfold in80; rewrite !has_app;
      destruct Hn as [_ ->]; destruct (clean_blanks (80 - String.length n)) as [_ ->]; apply fmt_clean).
    rewrite cut_none by apply fmti_clean. reflexivity.
  - intros b. transitivity (cut_lines (l ++ endl ++ fmt p (ms (w_total r)) ++ endl ++ b)%string).
    { f_equal. unfold report_text, l, in80, ms. rewrite pad_blanks, !app_s.
      replace (if (w_stops r =? 0)%nat then None else Some (w_total r * 1000 / INR (w_stops r))) with (option_map (fun x => x * 1000) av); [reflexivity|].
      unfold av. destruct (w_stops r =? 0)%nat eqn:Es; [reflexivity|]. cbn. f_equal. field. apply Nat.eqb_neq in Es. now apply not_0_INR. }
    rewrite !cut_line; [reflexivity|apply fmt_clean|]. unfold l, in80. rewrite !count_app. change (ascii_of_nat 10) with newline.
    destruct (fmti_clean (w_stops r)) as [-> _]. repeat match goal with |- context [fmt p ?x] => destruct (fmt_clean p x) as [-> _] end.
    destruct Hn as [-> _]. destruct (clean_blanks (80 - String.length n)) as [-> _]. reflexivity.
Qed.

(** After any history, the report of a name started while the watch was on is two lines: the first, cut at the
    tabulations, holds the name on eighty columns with the minimum, the average, the maximum, the last time, all in
    milliseconds, and the number of measures, as the getters give them; the second is the total. Any other name
    raises. *)
Theorem watch_report m cs n p : let w := fold_left wexec cs (w_new m) in
  is_on true cs = true -> clean n ->
  (started n true cs -> exists text ls, report fmt fmti w n p = Ok text /\ cut_lines text = ls ++ [""] /\ shown w n p ls) /\
  (~ started n true cs -> report fmt fmti w n p = Throw "Performance not initialized.").
Proof.
  intros w Hon Hn. destruct (keys_run n cs (w_new m) (msorted_nil _ _ scmp)) as (_ & A & B). fold w in A, B. cbn [w_active w_new] in A, B. rewrite Hon in A.
  split; intros H.
  - destruct (report_shown w n p A) as (t & ls & E & S & L); [apply B; now right|exact Hn|]. exists t, ls. split; [exact E|]. split; [|exact S].
    specialize (L ""%string). rewrite app_nil_s in L. exact L.
  - unfold report. rewrite A. cbn [negb]. destruct (mfind scmp (w_recs w) n) as [q|] eqn:F; [|reflexivity]. exfalso.
    assert (Some q <> None) as X by discriminate. apply B in X as [X|X]; [now apply X|contradiction].
Qed.

Lemma report_loop w p : forall (r : list (string * perf)) out, w_active w = true -> (forall x, In x r -> mfind scmp (w_recs w) (fst x) <> None /\ clean (fst x)) ->
  exists text rows, ofold (fun out x => let* t := report fmt fmti w (fst x) p in Ok (out ++ t)%string) r out = Ok (out ++ text)%string /\
    Forall2 (fun x ls => shown w (fst x) p ls) r rows /\ forall b, cut_lines (text ++ b)%string = concat rows ++ cut_lines b.
Proof.
  induction r as [|x r IH]; intros out Ha H; cbn [ofold].
  - exists ""%string, []. split; [f_equal; now induction out; cbn; congruence|]. split; [constructor|reflexivity].
  - destruct (H x (or_introl eq_refl)) as [H1 H2]. destruct (report_shown w (fst x) p Ha H1 H2) as (t & ls & E & S & L). rewrite E. cbn [bind].
    destruct (IH (out ++ t)%string Ha) as (text & rows & E' & S' & L'); [intros; apply H; now right|].
    exists (t ++ text)%string, (ls :: rows). rewrite E', !app_s. split; [reflexivity|]. split; [now constructor|].
    intros b. rewrite app_s, L, L'. cbn. now rewrite app_assoc.
Qed.
(** The report of everything: an empty line, a header, and the lines of the names started while the watch was on,
    each once, in the order of the names. *)
Theorem watch_report_all m cs p : let w := fold_left wexec cs (w_new m) in
  is_on true cs = true -> (forall n, started n true cs -> clean n) ->
  exists text names rows, report_all fmt fmti w p = Ok text /\
    StronglySorted (fun a b => String.compare a b = Lt) names /\ (forall n, In n names <-> started n true cs) /\
    Forall2 (fun n ls => shown w n p ls) names rows /\ cut_lines text = ["" ; header] ++ concat rows ++ [""].
Proof.
  intros w Hon Hc. assert (K := fun n => keys_run n cs (w_new m) (msorted_nil _ _ scmp)). fold w in K. cbn [w_active w_new w_recs mfind] in K.
  destruct (K ""%string) as (Hs & A & _). rewrite Hon in A.
  assert (B : forall n, mfind scmp (w_recs w) n <> None <-> started n true cs).
  { intros n. destruct (K n) as (_ & _ & X). rewrite X. split; [intros [Y|Y]; [contradiction|exact Y]|auto]. } clear K.
  assert (I : forall n, In n (map fst (w_recs w)) <-> mfind scmp (w_recs w) n <> None).
  { intros n. rewrite in_map_iff. split.
    - intros ((n' & v) & <- & Hi). cbn. apply (mfind_in _ _ scmp scmp_eq scmp_antisym _ _ _ Hs) in Hi. rewrite Hi. discriminate.
    - intros H. destruct (mfind scmp (w_recs w) n) as [v|] eqn:F; [|contradiction]. apply (mfind_in _ _ scmp scmp_eq scmp_antisym _ _ _ Hs) in F. exists (n, v). auto. }
  unfold report_all. rewrite A. cbn [negb].
  destruct (report_loop w p (w_recs w) (endl ++ "*** PROFILING RESULTS [ms] (min - avg - max - lastTime - " ++ "nSamples - totalTime) ***" ++ endl) A)
    as (text & rows & E & S & L).
  { intros x Hx. assert (mfind scmp (w_recs w) (fst x) <> None) as X by (apply I; now apply in_map). split; [exact X|]. apply Hc, B, X. }
  eexists _, (map fst (w_recs w)), rows. split; [exact E|]. split.
  { clear -Hs. unfold msorted in Hs. induction Hs as [|a l Hl IH Ha]; [constructor|]. cbn. constructor; [exact IH|].
    rewrite Forall_map. exact Ha. }
  split; [intros n; rewrite I; apply B|]. split; [clear -S; induction S; cbn; constructor; assumption|].
  rewrite !app_s. replace (endl ++ "*** PROFILING RESULTS [ms] (min - avg - max - lastTime - " ++ "nSamples - totalTime) ***" ++ endl ++ text)%string
    with ("" ++ endl ++ header ++ endl ++ text ++ "")%string.
  2:{ rewrite app_nil_s. reflexivity. }
  rewrite (cut_line ""), (cut_line header), L by reflexivity. reflexivity.
Qed.

(** A watch that is off reports nothing, and raises nothing. *)
Theorem watch_report_off m cs n p : is_on true cs = false ->
  report fmt fmti (fold_left wexec cs (w_new m)) n p = Ok "" /\ report_all fmt fmti (fold_left wexec cs (w_new m)) p = Ok "".
Proof.
  intros H. destruct (keys_run ""%string cs (w_new m) (msorted_nil _ _ scmp)) as (_ & A & _). cbn [w_active w_new] in A. rewrite H in A.
  unfold report, report_all. rewrite A. split; reflexivity.
Qed.
End Report.

(** A name of eighty characters or more runs into the minimum: two different measures have the same report. The
    texts of the numbers are any that write 10 milliseconds as a digit followed by what 0 is written. *)
Theorem watch_report_name_refuted fmt fmti p d : fmt p (Some (1 / 100 * 1000)) = (d ++ fmt p (Some (0 * 1000)))%string -> d <> ""%string ->
  forall n, (80 <= String.length n)%nat -> forall r,
  report_text fmt fmti n p (mkPerf (w_start r) (w_total r) (1 / 100) (w_max r) (w_last r) (w_stops r)) =
  report_text fmt fmti (n ++ d) p (mkPerf (w_start r) (w_total r) 0 (w_max r) (w_last r) (w_stops r)) /\ n <> (n ++ d)%string.
Proof.
  intros Hd Hn n Hl r. split.
  - unfold report_text. cbn [w_min w_total w_stops w_max w_last]. rewrite !pad_blanks.
    assert (L : forall a b, String.length (a ++ b) = (String.length a + String.length b)%nat) by (intros a b; induction a; cbn; congruence).
    rewrite L. replace (80 - String.length n)%nat with 0%nat by lia. replace (80 - (String.length n + String.length d))%nat with 0%nat by lia.
    cbn [blanks]. rewrite Hd, !app_s. reflexivity.
  - clear -Hn. intros E. apply Hn. induction n as [|a n IH]; cbn in E; [now symmetry|]. injection E as E. auto.
Qed.
(** A name started and never stopped: the average is the quotient of zero by zero. *)
Theorem watch_report_no_measure fmt fmti n t p :
  report fmt fmti (fold_left wexec [WStart n t] (w_new MReal)) n p =
  Ok (n ++ pad n ++ fmt p (Some (0 * 1000)) ++ tb ++ fmt p None ++ tb ++ fmt p (Some (0 * 1000)) ++ tb ++ fmt p (Some (0 * 1000)) ++ tb ++
      fmti 0%nat ++ endl ++ fmt p (Some (0 * 1000)) ++ endl)%string.
Proof.
  cbn. unfold start, report. cbn. assert (E : scmp n n = Eq) by now apply scmp_eq. rewrite !E. cbn. unfold report_text. cbn [w_min w_total w_stops w_max w_last Nat.eqb].
  rewrite !app_s. reflexivity.
Qed.

Example watch_report_case : let fmt (p : nat) (x : option R) := match x with Some _ => "1.0" | None => "nan" end in
  let fmti (k : nat) := "1" in
  let cs := [WStart "b" (mkTick 0 1); WStop "b" (mkTick 0 2); WStart "a" (mkTick 0 3); WTurn false; WStart "c" (mkTick 0 4); WTurn true] in
  (forall p x, clean (fmt p x)) /\ (forall k, clean (fmti k)) /\ is_on true cs = true /\
  started "a" true cs /\ started "b" true cs /\ ~ started "c" true cs /\ clean "a" /\ clean "b".
Proof.
  cbn. split; [intros p [x|]; split; reflexivity|]. split; [split; reflexivity|]. split; [reflexivity|].
  split; [tauto|]. split; [tauto|]. split; [intuition congruence|]. split; split; reflexivity.
Qed.

Print Assumptions watch_report.
Print Assumptions watch_report_all.
Print Assumptions watch_report_off.
Print Assumptions watch_report_name_refuted.
Print Assumptions watch_report_no_measure.
