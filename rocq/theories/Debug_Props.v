(** Properties of the debug traces (C135). *)
From Coq Require Import String Ascii List Arith ZArith Bool Lia.
From Verif Require Import Base RefName_Model Debug_Model.
Import ListNotations.
Local Open Scope string_scope.
Local Open Scope list_scope.
Local Open Scope nat_scope.

(** ** Specification *)
(** For each flow, the text waiting and the level, after a history. *)
Definition waiting : Type := flow -> string * Z.
Definition wait_step (p : waiting) (c : dcmd) : waiting :=
  match c with
  | DPre fl txt l => fset p fl ((fst (p fl) ++ txt)%string, match l with Some l => l | None => snd (p fl) end)
  | DTrace fl _ _ _ | DOut fl _ _ => fset p fl (""%string, snd (p fl))
  | _ => p
  end.
Definition waits (h : list dcmd) (p : waiting) : waiting := fold_left wait_step h p.
(** What a command says: the messages whose level is within that of their flow, after the text that waited. *)
Definition says1 (p : waiting) (c : dcmd) : string :=
  match c with
  | DTrace fl None msg _ => fst (p fl) ++ substring 0 511 msg ++ endl
  | DTrace fl (Some l) msg _ => if (l <=? snd (p fl))%Z then fst (p fl) ++ substring 0 511 msg ++ endl else ""
  | DOut fl l _ => if (l <=? snd (p fl))%Z then fst (p fl) else ""
  | DStream None _ txt _ => txt
  | DStream (Some l) mode txt _ => if (l <=? mode)%Z then txt else ""
  | _ => ""
  end%string.
Fixpoint said (p : waiting) (h : list dcmd) : string :=
  match h with [] => "" | c :: r => (says1 p c ++ said (wait_step p c) r)%string end.
Definition write_of (c : dcmd) : wres := match c with DTrace _ _ _ w | DOut _ _ w | DStream _ _ _ w => w | _ => WOk end.
Definition no_failure (h : list dcmd) : Prop := Forall (fun c => write_of c = WOk) h.
Definition switches (c : dcmd) : Prop := match c with DOpen _ | DClose => True | _ => False end.
Definition start_wait (s : dstate) : waiting := fun fl => (tmp s fl, lev s fl).
(** The stream is good exactly when a file is open. *)
Definition consistent (s : dstate) : Prop := bad s = match file s with Some _ => false | None => true end.

Section Props.
Variable openable : string -> bool.
Notation run := (drun openable).
Notation exec := (dexec openable).

Lemma run_app a b s : run (a ++ b) s = run b (run a s).
Proof. apply fold_left_app. Qed.
Lemma sassoc (a b c : string) : ((a ++ b) ++ c = a ++ b ++ c)%string.
Proof. induction a; cbn; congruence. Qed.
Lemma snil (a : string) : (a ++ "" = a)%string.
Proof. induction a; cbn; congruence. Qed.

(** *** What waits *)
Lemma put_flows s t w : tmp (put s t w) = tmp s /\ lev (put s t w) = lev s.
Proof. unfold put. destruct (bad s), (file s), w; split; reflexivity. Qed.
Lemma exec_waits s c fl : start_wait (exec s c) fl = wait_step (start_wait s) c fl.
Proof.
  unfold start_wait. destruct c as [f| |g t l|g l m w|g l w|l mo t w]; cbn.
  - unfold openFile. destruct (bad s); cbn; destruct (file s), (openable f); reflexivity.
  - unfold closeFile. destruct (bad s); reflexivity.
  - unfold pre. destruct l; cbn; unfold fset; destruct g, fl; reflexivity.
  - unfold trace. cbn. destruct (within l (lev s g)); cbn; [destruct (put_flows s (tmp s g ++ substring 0 511 m ++ endl) w) as [-> ->]|]; unfold fset; destruct g, fl; reflexivity.
  - unfold trace_out. cbn. destruct (l <=? lev s g)%Z; cbn; [destruct (put_flows s (tmp s g) w) as [-> ->]|]; unfold fset; destruct g, fl; reflexivity.
  - unfold stream. destruct (negb (within l mo) || bad s); [reflexivity|]. destruct (put_flows s t w) as [-> ->]. reflexivity.
Qed.
Lemma wait_ext p q c : (forall fl, p fl = q fl) -> forall fl, wait_step p c fl = wait_step q c fl.
Proof. intros E fl. destruct c as [f| |g t l|g l m w|g l w|l mo t w]; cbn; auto; unfold fset; rewrite ?E; destruct (flow_eqb g fl); auto. Qed.
Lemma said_ext h : forall p q, (forall fl, p fl = q fl) -> said p h = said q h.
Proof.
  induction h as [|c h IH]; intros p q E; [reflexivity|]. cbn. rewrite (IH _ _ (wait_ext p q c E)). f_equal.
  destruct c as [f| |g t l|g l m w|g l w|l mo t w]; cbn; auto; rewrite ?E; auto.
Qed.
Lemma waits_ext h : forall p q, (forall fl, p fl = q fl) -> forall fl, waits h p fl = waits h q fl.
Proof. induction h as [|c h IH]; intros p q E; [exact E|]. cbn. apply IH, wait_ext, E. Qed.
Lemma run_waits h : forall s fl, start_wait (run h s) fl = waits h (start_wait s) fl.
Proof.
  induction h as [|c h IH]; intros s fl; [reflexivity|]. cbn. change (fold_left exec h (exec s c)) with (run h (exec s c)). rewrite IH.
  apply waits_ext. intros g. apply exec_waits.
Qed.

(** *** The file *)
Lemma exec_consistent s c : consistent s -> write_of c = WOk -> consistent (exec s c).
Proof.
  unfold consistent. intros C W. assert (P : forall t, bad (put s t WOk) = bad s /\ file (put s t WOk) = file s).
  { intros t. unfold put. rewrite C. destruct (file s) eqn:F; cbn; rewrite ?C, ?F; auto. }
  destruct c as [f| |g t l|g l m w|g l w|l mo t w]; cbn in *; subst.
  - unfold openFile. rewrite C. destruct (file s) eqn:F; cbn; rewrite ?F; destruct (openable f); reflexivity.
  - unfold closeFile. rewrite C. destruct (file s) eqn:F; cbn; rewrite ?F; reflexivity.
  - unfold pre. destruct l; exact C.
  - unfold trace. destruct (within l (lev s g)); cbn; [|exact C]. destruct (P (tmp s g ++ substring 0 511 m ++ endl)%string) as [-> ->]. exact C.
  - unfold trace_out. destruct (l <=? lev s g)%Z; cbn; [|exact C]. destruct (P (tmp s g)) as [-> ->]. exact C.
  - unfold stream. destruct (negb (within l mo) || bad s); [exact C|]. destruct (P t) as [-> ->]. exact C.
Qed.
Lemma run_consistent h : forall s, consistent s -> no_failure h -> consistent (run h s).
Proof. induction h as [|c h IH]; intros s C N; [exact C|]. inversion N; subst. apply IH; [apply exec_consistent|]; assumption. Qed.
(** One command, a file being open: it stays open and receives what the command says; no other file changes. *)
Lemma exec_says s c f d : file s = Some f -> bad s = false -> disk s f = Some d -> write_of c = WOk -> ~ switches c ->
  file (exec s c) = Some f /\ bad (exec s c) = false /\ disk (exec s c) f = Some (d ++ says1 (start_wait s) c)%string.
Proof.
  intros F B D W N. assert (P : forall t, file (put s t WOk) = Some f /\ bad (put s t WOk) = false /\ disk (put s t WOk) f = Some (d ++ t)%string).
  { intros t. unfold put. rewrite B, F. cbn. unfold dput. rewrite String.eqb_refl, D. auto. }
  destruct c as [g| |g t l|g l m w|g l w|l mo t w]; cbn in W |- *; subst; try (destruct N; exact I).
  - unfold pre. rewrite snil. destruct l; auto.
  - unfold trace. destruct l as [l|]; cbn [within]; [destruct (l <=? lev s g)%Z; cbn; [apply P|rewrite snil; auto]|apply P].
  - unfold trace_out. destruct (l <=? lev s g)%Z; cbn; [apply P|rewrite snil; auto].
  - unfold stream. rewrite B, orb_false_r. destruct l as [l|]; cbn [within]; [destruct (l <=? mo)%Z; cbn; [apply P|rewrite snil; auto]|apply P].
Qed.
Lemma run_says h : forall s f d, file s = Some f -> bad s = false -> disk s f = Some d -> no_failure h -> Forall (fun c => ~ switches c) h ->
  file (run h s) = Some f /\ bad (run h s) = false /\ disk (run h s) f = Some (d ++ said (start_wait s) h)%string.
Proof.
  induction h as [|c h IH]; intros s f d F B D N S; [cbn; rewrite snil; auto|]. inversion N; inversion S; subst.
  destruct (exec_says s c f d) as (F' & B' & D'); auto. cbn [drun fold_left]. change (fold_left exec h (exec s c)) with (run h (exec s c)).
  destruct (IH _ _ _ F' B' D') as (F2 & B2 & D2); auto. split; [exact F2|]. split; [exact B2|]. rewrite D2, sassoc. cbn. do 2 f_equal.
  f_equal. apply said_ext. apply exec_waits.
Qed.
(** A file that is not the one open, and is not opened, does not change. *)
Lemma exec_other s c f : file s <> Some f -> c <> DOpen f -> file (exec s c) <> Some f /\ disk (exec s c) f = disk s f.
Proof.
  intros F N. assert (P : forall t w, file (put s t w) <> Some f /\ disk (put s t w) f = disk s f).
  { intros t w. unfold put. destruct (bad s); [auto|]. destruct (file s) as [g|] eqn:G; [|cbn; rewrite ?G; auto].
    assert (Q : (f =? g)%string = false) by (apply String.eqb_neq; congruence). destruct w; cbn; unfold dput; rewrite Q; auto. }
  destruct c as [g| |g t l|g l m w|g l w|l mo t w]; cbn [dexec].
  - assert (Q : (f =? g)%string = false) by (apply String.eqb_neq; congruence). unfold openFile. destruct (bad s); cbn.
    + destruct (file s) as [k|] eqn:G; cbn; [rewrite ?G; auto|]. destruct (openable g); cbn; [rewrite Q; split; congruence|split; [discriminate|reflexivity]].
    + destruct (openable g); cbn; [rewrite Q; split; congruence|split; [discriminate|reflexivity]].
  - unfold closeFile. destruct (bad s); cbn; split; auto; discriminate.
  - unfold pre. destruct l; cbn; auto.
  - unfold trace. destruct (within l (lev s g)); cbn; auto.
  - unfold trace_out. destruct (l <=? lev s g)%Z; cbn; auto.
  - unfold stream. destruct (negb (within l mo) || bad s); auto.
Qed.
(** Files that are not opened by a history are not touched by it, whatever fails. *)
Theorem trace_untouched h : forall s f, file s <> Some f -> ~ In (DOpen f) h -> disk (run h s) f = disk s f.
Proof.
  induction h as [|c h IH]; intros s f F N; [reflexivity|]. destruct (exec_other s c f F) as (F' & D); [intros ->; apply N; left; reflexivity|].
  cbn [drun fold_left]. change (fold_left exec h (exec s c)) with (run h (exec s c)). rewrite IH; auto. intros H. apply N. right. exact H.
Qed.

(** When no write fails: a file that can be opened holds, from its last opening on, exactly what was said until the next opening or
    closing, in order; a message above the level of its flow is left out, and so is the text that waited for it.
    Missing: histories in which a write fails; the recovery claimed there is false, see trace_stuck_refuted. *)
Theorem trace_contents_partial s h1 f seg rest : consistent s -> no_failure (h1 ++ DOpen f :: seg ++ rest) -> openable f = true ->
  Forall (fun c => ~ switches c) seg -> match rest with [] => True | c :: _ => switches c end -> ~ In (DOpen f) rest ->
  disk (run (h1 ++ DOpen f :: seg ++ rest) s) f = Some (said (waits h1 (start_wait s)) seg).
Proof.
  intros C N O S R NR. apply Forall_app in N as [N1 N]. inversion N as [|? ? _ N2]; subst. apply Forall_app in N2 as [N2 N3].
  rewrite run_app. set (s1 := run h1 s). assert (C1 : consistent s1) by (apply run_consistent; assumption).
  change (DOpen f :: seg ++ rest) with ([DOpen f] ++ seg ++ rest). rewrite !run_app. set (s2 := run [DOpen f] s1).
  assert (E : file s2 = Some f /\ bad s2 = false /\ disk s2 f = Some ""%string).
  { unfold s2. cbn. unfold openFile. unfold consistent in C1. rewrite C1. destruct (file s1) eqn:F; cbn; rewrite ?F, O; cbn; rewrite String.eqb_refl; auto. }
  destruct E as (F2 & B2 & D2). destruct (run_says seg s2 f "" F2 B2 D2 N2 S) as (F3 & B3 & D3).
  assert (W : said (start_wait s2) seg = said (waits h1 (start_wait s)) seg).
  { apply said_ext. intros fl. unfold s2. cbn [drun fold_left]. rewrite exec_waits. cbn. unfold s1. apply run_waits. }
  rewrite W in D3. cbn in D3. destruct rest as [|c rest]; [exact D3|].
  assert (K : file (exec (run seg s2) c) <> Some f /\ disk (exec (run seg s2) c) f = disk (run seg s2) f).
  { destruct c as [g| | | | | ]; cbn in R; try contradiction; cbn [dexec].
    - assert (Q : (f =? g)%string = false) by (apply String.eqb_neq; intros ->; apply NR; left; reflexivity).
      unfold openFile. rewrite B3. cbn. destruct (openable g); cbn; [rewrite Q|]; split; auto; [|discriminate]. apply String.eqb_neq in Q. congruence.
    - unfold closeFile. rewrite B3. cbn. split; [discriminate|reflexivity]. }
  destruct K as (K1 & K2). change (run (c :: rest) (run seg s2)) with (run rest (exec (run seg s2) c)). rewrite trace_untouched; [rewrite K2; exact D3|exact K1|].
  intros H. apply NR. right. exact H.
Qed.

(** After closeFile, and until a file is opened, nothing is written anywhere. *)
Theorem trace_closed s h : (forall f, ~ In (DOpen f) h) -> forall f, disk (run (DClose :: h) s) f = disk s f.
Proof.
  intros N. assert (K : forall h s, (forall f, ~ In (DOpen f) h) -> bad s = true -> forall f, disk (run h s) f = disk s f).
  { clear. induction h as [|c h IH]; intros s N B f; [reflexivity|]. cbn [drun fold_left]. change (fold_left exec h (exec s c)) with (run h (exec s c)).
    assert (E : bad (exec s c) = true /\ disk (exec s c) = disk s).
    { assert (P : forall t w, put s t w = s) by (intros; unfold put; rewrite B; reflexivity).
      destruct c as [g| |g t l|g l m w|g l w|l mo t w]; cbn [dexec].
      - destruct (N g). left. reflexivity.
      - unfold closeFile. rewrite B. auto.
      - unfold pre. destruct l; auto.
      - unfold trace. rewrite P. destruct (within l (lev s g)); auto.
      - unfold trace_out. rewrite P. destruct (l <=? lev s g)%Z; auto.
      - unfold stream. rewrite B, orb_true_r. auto. }
    destruct E as (E1 & E2). rewrite IH; [congruence| |exact E1]. intros k H. apply (N k). right. exact H. }
  intros f. change (run (DClose :: h) s) with (run h (exec s DClose)). rewrite K; [|exact N|unfold dexec, closeFile; reflexivity].
  cbn. unfold closeFile. destruct (bad s); reflexivity.
Qed.

(** Finding: once a write has failed, nothing can be written any more, to any file: the file is never closed, and opening another
    fails because of it. *)
Theorem trace_stuck_refuted s f : file s = Some f -> bad s = false ->
  let s' := exec s (DStream None 0 "message" (WFail 0)) in file s' = Some f /\ forall h g, disk (run h s') g = disk s' g.
Proof.
  intros F B s'. assert (E : file s' = Some f /\ bad s' = true).
  { unfold s'. cbn. unfold stream. rewrite B. cbn. unfold put. rewrite B, F. auto. }
  split; [apply E|]. revert E. generalize s'. clear. intros s E h. revert s E. induction h as [|c h IH]; intros s (F & B) g; [reflexivity|].
  cbn [drun fold_left]. change (fold_left exec h (exec s c)) with (run h (exec s c)).
  assert (P : forall t w, put s t w = s) by (intros; unfold put; rewrite B; reflexivity).
  assert (E : (file (exec s c) = Some f /\ bad (exec s c) = true) /\ disk (exec s c) = disk s).
  { destruct c as [k| |k t l|k l m w|k l w|l mo t w]; cbn [dexec].
    - unfold openFile. rewrite B. cbn. rewrite F. cbn. auto.
    - unfold closeFile. rewrite B. auto.
    - unfold pre. destruct l; auto.
    - unfold trace. rewrite P. destruct (within l (lev s k)); auto.
    - unfold trace_out. rewrite P. destruct (l <=? lev s k)%Z; auto.
    - unfold stream. rewrite B, orb_true_r. auto. }
  destruct E as (E1 & E2). rewrite IH by exact E1. congruence.
Qed.
End Props.

(** The hypotheses are met: two flows, a message above the level, a second opening of the same file. *)
Example trace_example :
  let h1 := [DOpen "a"; DStream None 0 "lost" WOk; DPre Dbg "skipped " (Some 2%Z); DTrace Dbg (Some 5%Z) "no" WOk; DPre Err "!! " None] in
  let seg := [DPre Dbg "here: " None; DTrace Dbg (Some 2%Z) "yes" WOk; DTrace Err None "error" WOk] in
  let rest := [DOpen "b"; DTrace Err None "other" WOk; DClose; DTrace Err None "none" WOk] in
  let s := dbg_new (fun _ => None) in
  consistent s /\ no_failure (h1 ++ DOpen "a" :: seg ++ rest) /\ ~ In (DOpen "a") rest /\
  disk (drun (fun _ => true) (h1 ++ DOpen "a" :: seg ++ rest) s) "a" = Some ("here: yes" ++ endl ++ "!! error" ++ endl)%string /\
  disk (drun (fun _ => true) (h1 ++ DOpen "a" :: seg ++ rest) s) "b" = Some ("other" ++ endl)%string.
Proof.
  cbv zeta. split; [reflexivity|]. split; [repeat constructor|]. split; [|split; vm_compute; reflexivity].
  intros H. cbn in H. repeat (destruct H as [H|H]; [discriminate H|]). exact H.
Qed.

Print Assumptions trace_untouched.
Print Assumptions trace_contents_partial.
Print Assumptions trace_closed.
Print Assumptions trace_stuck_refuted.
