(** C43, C44: the causal filter. *)
From Coq Require Import String Ascii List Arith Lia ZArith Bool Reals Lra.
From Verif Require Import Base Filter_Model Filter_Fir_Props.
Import ListNotations.
Local Open Scope nat_scope.
Local Open Scope list_scope.

(* ------------------------------------------------------------------ *)
(** * Specification: the difference equation, without buffers or pointers *)

(** Gain of the filter at zero frequency. *)
Definition dc_gain (num den : list R) (x : R) : R := (x * rsum num / rsum den)%R.

(** Next output.  [xs]: the inputs, latest first; [ys]: the previous outputs, latest
    first; [pre]: the constant input assumed before the first sample. *)
Definition next_output (num den : list R) (pre : R) (xs ys : list R) : R :=
  ((sum_lt (length num) (fun j => nth j num 0 * nth j xs pre)
    - sum_lt (length den - 1) (fun j => nth (S j) den 0 * nth j ys (dc_gain num den pre)))
   / nth 0 den 0)%R.

(** Inputs and outputs since the last change of coefficients, latest first. *)
Record cspec := mkCspec {
  c_num : list R; c_den : list R; c_pre : option R; c_xs : list R; c_ys : list R;
  c_outs : list (R * R * R) }.

Definition cspec_step (dt : R) (s : cspec) (e : cf_event) : cspec :=
  match e with
  | CSample x =>
      let pre := match c_pre s with Some p => p | None => x end in
      let y := next_output (c_num s) (c_den s) pre (x :: c_xs s) (c_ys s) in
      let past j := nth j (c_ys s) (dc_gain (c_num s) (c_den s) pre) in
      (* with a denominator of size two only one past output is stored *)
      let y2 := if length (c_den s) =? 2 then past 0 else past 1 in
      mkCspec (c_num s) (c_den s) (Some pre) (x :: c_xs s) (y :: c_ys s)
        (c_outs s ++ [(y, (y - past 0%nat) / dt, (y - 2 * past 0%nat + y2) / dt / dt)%R])
  | CSwitch num den =>
      match c_pre s with
      | Some p => mkCspec num den (Some (nth (length (c_num s) - 1) (c_xs s) p)) [] [] (c_outs s)
      | None => mkCspec num den None [] [] (c_outs s)
      end
  end.

Definition cspec_new (num den : list R) : cspec := mkCspec num den None [] [] [].

(** Coefficient vectors the code can handle. *)
Definition sized (num den : list R) : Prop := 1 <= length num /\ 2 <= length den.
Definition event_sized (e : cf_event) : Prop :=
  match e with CSample _ => True | CSwitch num den => sized num den end.

(* ------------------------------------------------------------------ *)
(** * Proofs *)

(** Circular storage read backwards from position [p]. *)
Definition cv (l : list R) (p : nat) : list R := rev (firstn (p + 1) l) ++ rev (skipn (p + 1) l).

Lemma cv_length l p : length (cv l p) = length l.
Proof. unfold cv. rewrite app_length, !rev_length, firstn_length, skipn_length. lia. Qed.

Lemma dot_app a a' b b' : length a = length b -> dot (a ++ a') (b ++ b') = (dot a b + dot a' b')%R.
Proof.
  revert b; induction a as [|x a IH]; intros [|y b] H; simpl in *; try lia; try lra.
  rewrite IH by lia. lra.
Qed.

Lemma dot_rev a b : length a = length b -> dot a (rev b) = dot (rev a) b.
Proof.
  intros H.
  assert (G : forall a b, length a = length b -> dot (rev a) (rev b) = dot a b).
  { clear. induction a as [|x a IH]; intros [|y b] H; simpl in *; try lia; auto.
    rewrite dot_app by (rewrite !rev_length; lia). simpl. rewrite IH by lia. lra. }
  rewrite <- (rev_involutive a) at 1. rewrite G; [reflexivity|]. rewrite rev_length. lia.
Qed.

Lemma dot_cv a c p : length a = length c -> dot a (cv c p) = dot (cv a p) c.
Proof.
  intros H. unfold cv.
  rewrite <- (firstn_skipn (p + 1) a) at 1. rewrite <- (firstn_skipn (p + 1) c) at 3.
  rewrite !dot_app by (rewrite ?rev_length, ?firstn_length, ?skipn_length; lia).
  rewrite !dot_rev by (rewrite ?firstn_length, ?skipn_length; lia). reflexivity.
Qed.

Lemma dot_sum a b : length a = length b ->
  dot a b = sum_lt (length b) (fun j => nth j b 0 * nth j a 0)%R.
Proof.
  revert b; induction a as [|x a IH]; intros [|y b] H; simpl in H; try lia; [reflexivity|].
  cbn [length dot]. rewrite sum_lt_S_l. cbn [nth]. rewrite IH by lia. lra.
Qed.

Lemma upd_split {A} (l : list A) i a : i < length l -> upd l i a = firstn i l ++ a :: skipn (S i) l.
Proof.
  revert l; induction i; intros [|x l] H; simpl in *; try lia; auto.
  f_equal. apply IHi. lia.
Qed.

(** Position written before [p] in a ring of [m]. *)
Definition before (p m : nat) : nat := if p =? 0 then m - 1 else p - 1.

Lemma cv_upd_0 l p x : p < length l -> nth 0 (cv (upd l p x) p) 0%R = x.
Proof.
  intros H. unfold cv. rewrite upd_split by lia.
  replace (firstn (p + 1) (firstn p l ++ x :: skipn (S p) l)) with (firstn p l ++ [x]).
  - rewrite rev_app_distr. reflexivity.
  - rewrite firstn_app, firstn_length. rewrite (firstn_firstn l (p + 1) p).
    replace (Nat.min (p + 1) p) with p by lia.
    replace (p + 1 - Nat.min p (length l)) with 1 by lia. reflexivity.
Qed.

Lemma rev_firstn_S (l : list R) p : p < length l -> rev (firstn (S p) l) = nth p l 0%R :: rev (firstn p l).
Proof.
  intros H. assert (E : firstn (S p) l = firstn p l ++ [nth p l 0%R]).
  { revert l H; induction p; intros [|a l] H; simpl in *; try lia; auto.
    f_equal. rewrite <- IHp by lia. reflexivity. }
  rewrite E, rev_app_distr. reflexivity.
Qed.

Lemma cv_upd l p x : p < length l ->
  cv (upd l p x) p = x :: firstn (length l - 1) (cv l (before p (length l))).
Proof.
  intros H. unfold cv, before. rewrite upd_split by lia.
  assert (E1 : firstn (p + 1) (firstn p l ++ x :: skipn (S p) l) = firstn p l ++ [x]).
  { rewrite firstn_app, firstn_length, firstn_firstn.
    replace (Nat.min (p + 1) p) with p by lia.
    replace (p + 1 - Nat.min p (length l)) with 1 by lia. reflexivity. }
  assert (E2 : skipn (p + 1) (firstn p l ++ x :: skipn (S p) l) = skipn (S p) l).
  { rewrite skipn_app, firstn_length. rewrite skipn_all2 by (rewrite firstn_length; lia).
    replace (p + 1 - Nat.min p (length l)) with 1 by lia. reflexivity. }
  rewrite E1, E2, rev_app_distr. cbn [rev app]. f_equal.
  destruct (Nat.eqb_spec p 0) as [->|Hp].
  - simpl firstn at 1. simpl rev at 1. cbn [app].
    replace (length l - 1 + 1) with (length l) by lia.
    rewrite firstn_all, skipn_all. simpl rev at 3. rewrite app_nil_r.
    destruct l as [|a l]; [simpl in H; lia|]. simpl skipn. simpl length.
    replace (S (length l) - 1) with (length l) by lia. simpl rev.
    rewrite firstn_app, rev_length, Nat.sub_diag. simpl. rewrite app_nil_r.
    rewrite <- (rev_length l). rewrite firstn_all. reflexivity.
  - replace (p - 1 + 1) with p by lia.
    rewrite firstn_app, rev_length, firstn_length.
    rewrite (firstn_all2 (rev (firstn p l))) by (rewrite rev_length, firstn_length; lia). f_equal.
    assert (E3 : skipn p l = nth p l 0%R :: skipn (S p) l).
    { clear - H. revert l H; induction p; intros [|a l] H; simpl in *; try lia; auto. apply IHp. lia. }
    rewrite E3. remember (skipn (S p) l) as tl0 eqn:Etl.
    assert (Ltl : length tl0 = length l - S p) by (subst; apply skipn_length).
    cbn [rev]. rewrite firstn_app.
    rewrite (firstn_all2 (rev tl0)) by (rewrite rev_length; lia).
    rewrite rev_length, Ltl.
    replace (length l - 1 - Nat.min p (length l) - (length l - S p)) with 0 by lia.
    simpl. rewrite app_nil_r. reflexivity.
Qed.

Definition ring (l : list R) (p : nat) (hist : list R) (pre : R) : Prop :=
  p < length l /\ forall j, j < length l -> nth j (cv l p) 0%R = nth j hist pre.

Lemma ring_push l p p' hist pre x :
  ring l p hist pre -> p = before p' (length l) -> p' < length l ->
  ring (upd l p' x) p' (x :: hist) pre.
Proof.
  intros [Hp H] Ep Hp'. split; [rewrite upd_length; lia|].
  rewrite upd_length. intros j Hj. rewrite cv_upd by lia.
  destruct j as [|j]; simpl; [reflexivity|].
  rewrite nth_firstn_f by lia. rewrite <- Ep. apply H. lia.
Qed.

Lemma cv_repeat x m p : cv (repeat x m) p = repeat x m.
Proof.
  apply (list_eq_nth x).
  - apply cv_length.
  - intros i Hi. rewrite cv_length, repeat_length in Hi. rewrite nth_repeat_lt by lia.
    assert (G : In (nth i (cv (repeat x m) p) x) (cv (repeat x m) p)).
    { apply nth_In. rewrite cv_length, repeat_length. lia. }
    unfold cv in G at 2. rewrite in_app_iff, <- !in_rev in G.
    apply in_or_app in G. rewrite firstn_skipn in G. exact (repeat_spec m x _ G).
Qed.

Lemma ring_repeat x m p : p < m -> ring (repeat x m) p [] x.
Proof.
  intros H. split; [rewrite repeat_length; lia|]. rewrite repeat_length. intros j Hj.
  rewrite cv_repeat, nth_repeat_lt by lia. destruct j; reflexivity.
Qed.

(** Relation between the filter and the specification. *)
Definition crel (dt : R) (f : cfilter) (s : cspec) : Prop :=
  cf_dt f = dt /\ cf_num f = c_num s /\ cf_den f = c_den s /\ sized (c_num s) (c_den s) /\
  length (cf_in f) = length (c_num s) /\ length (cf_out f) = length (c_den s) - 1 /\
  match c_pre s with
  | None => cf_first f = true /\ c_xs s = [] /\ c_ys s = [] /\ cf_pn f = 0 /\ cf_pd f = 0
  | Some pre => cf_first f = false /\ cf_pn f < length (c_num s) /\
      ring (cf_in f) (before (cf_pn f) (length (c_num s))) (c_xs s) pre /\
      ring (cf_out f) (cf_pd f) (c_ys s) (dc_gain (c_num s) (c_den s) pre)
  end.

Lemma skipn_skipn1 {A} (l : list A) k : skipn (k + 1) (skipn 1 l) = skipn (k + 2) l.
Proof. destruct l; simpl. - rewrite !skipn_nil. reflexivity. - rewrite !Nat.add_succ_r, !Nat.add_0_r. reflexivity. Qed.

Lemma before_next p m : p < m -> before (if p + 1 <? m then p + 1 else 0) m = p.
Proof.
  intros H. unfold before. destruct (Nat.ltb_spec (p + 1) m).
  - destruct (Nat.eqb_spec (p + 1) 0); lia.
  - simpl. lia.
Qed.

Lemma cf_step_spec dt f s x :
  crel dt f s -> let s' := cspec_step dt s (CSample x) in
  exists f' o, cf_step f x = Ok (f', o) /\ c_outs s' = c_outs s ++ [o] /\ crel dt f' s'.
Proof.
  intros (Hdt & Hnum & Hden & (Hm & Hn) & Hli & Hlo & Hst). cbn zeta.
  unfold cf_step. rewrite Hnum, Hden.
  destruct (Nat.eqb_spec (length (c_num s)) 0); [lia|].
  destruct (Nat.ltb_spec (length (c_den s)) 2); [lia|]. cbn [orb].
  set (pre := match c_pre s with Some p => p | None => x end).
  set (inb := if cf_first f then _ else _). set (outb := if cf_first f then _ else _).
  assert (Hpn : cf_pn f < length (c_num s)).
  { destruct (c_pre s) as [p|]; [apply Hst|]. destruct Hst as (_ & _ & _ & E & _). lia. }
  assert (Hin : length inb = length (c_num s) /\ ring inb (before (cf_pn f) (length (c_num s))) (c_xs s) pre).
  { subst inb pre. destruct (c_pre s) as [p|].
    - destruct Hst as (Ef & _ & HR & _). rewrite Ef. auto.
    - destruct Hst as (Ef & Ex & _ & Ep & _). rewrite Ef, Ex, repeat_length. split; auto.
      apply ring_repeat. unfold before. destruct (cf_pn f =? 0); lia. }
  assert (Hout : length outb = length (c_den s) - 1 /\
                 ring outb (cf_pd f) (c_ys s) (dc_gain (c_num s) (c_den s) pre)).
  { subst outb pre. destruct (c_pre s) as [p|].
    - destruct Hst as (Ef & _ & _ & HR). rewrite Ef. auto.
    - destruct Hst as (Ef & _ & Ey & _ & Ep). rewrite Ef, Ey, repeat_length. split; auto.
      apply ring_repeat. lia. }
  clearbody inb outb. destruct Hin as [Lin Rin]. destruct Hout as [Lout Rout].
  assert (Hpd : cf_pd f < length (c_den s) - 1) by (destruct Rout; lia).
  unfold vset at 1. rewrite Lin, (proj2 (Nat.ltb_lt _ _) Hpn). cbn [bind].
  rewrite (vget_ok (c_den s) 0 0%R) by lia. cbn [bind].
  assert (Rin' : ring (upd inb (cf_pn f) x) (cf_pn f) (x :: c_xs s) pre).
  { eapply ring_push; [exact Rin| rewrite Lin; reflexivity | lia]. }
  rewrite <- skipn_skipn1.
  change (rev (firstn (cf_pn f + 1) (c_num s)) ++ rev (skipn (cf_pn f + 1) (c_num s)))
    with (cv (c_num s) (cf_pn f)).
  change (rev (firstn (cf_pd f + 1) (skipn 1 (c_den s))) ++ rev (skipn (cf_pd f + 1) (skipn 1 (c_den s))))
    with (cv (skipn 1 (c_den s)) (cf_pd f)).
  rewrite !dot_cv by (rewrite ?upd_length, ?skipn_length; lia).
  rewrite !dot_sum by (rewrite cv_length, ?upd_length, ?skipn_length; lia).
  rewrite skipn_length.
  rewrite (sum_lt_ext (length (c_num s)) _ (fun j => nth j (c_num s) 0 * nth j (x :: c_xs s) pre)%R).
  2:{ intros i Hi. destruct Rin' as [_ H']. rewrite H' by (rewrite upd_length; lia). reflexivity. }
  rewrite (sum_lt_ext (length (c_den s) - 1) _ (fun j => nth (S j) (c_den s) 0
             * nth j (c_ys s) (dc_gain (c_num s) (c_den s) pre))%R).
  2:{ intros i Hi. destruct Rout as [_ H']. rewrite H' by lia. rewrite nth_skipn_f. reflexivity. }
  fold (next_output (c_num s) (c_den s) pre (x :: c_xs s) (c_ys s)).
  set (y := next_output _ _ _ _ _).
  assert (G0 : nth (cf_pd f) outb 0%R = nth 0 (c_ys s) (dc_gain (c_num s) (c_den s) pre)).
  { destruct Rout as [_ H']. rewrite <- H' by lia. unfold cv.
    rewrite Nat.add_1_r, rev_firstn_S by lia. reflexivity. }
  assert (Lprev : (if cf_pd f =? 0 then length (c_den s) - 2 else cf_pd f - 1) < length outb).
  { destruct (cf_pd f =? 0); lia. }
  assert (G1 : nth (if cf_pd f =? 0 then length (c_den s) - 2 else cf_pd f - 1) outb 0%R
    = if length (c_den s) =? 2 then nth 0 (c_ys s) (dc_gain (c_num s) (c_den s) pre)
      else nth 1 (c_ys s) (dc_gain (c_num s) (c_den s) pre)).
  { destruct (Nat.eqb_spec (length (c_den s)) 2) as [E2|E2].
    - replace (if cf_pd f =? 0 then length (c_den s) - 2 else cf_pd f - 1) with (cf_pd f)
        by (destruct (Nat.eqb_spec (cf_pd f) 0); lia). exact G0.
    - destruct Rout as [_ H']. rewrite <- H' by lia. unfold cv.
      destruct (Nat.eqb_spec (cf_pd f) 0) as [E0|E0].
      + rewrite E0. cbn [Nat.add]. destruct outb as [|o outb]; [simpl in Lout; lia|].
        cbn [firstn skipn rev app nth]. simpl in Lout.
        rewrite rev_nth by lia.
        replace (length (c_den s) - 2) with (S (length outb - 1)) by lia. cbn [nth].
        f_equal.
      + rewrite Nat.add_1_r, rev_firstn_S by lia. cbn [app nth].
        replace (cf_pd f) with (S (cf_pd f - 1)) at 2 by lia. rewrite rev_firstn_S by lia. reflexivity. }
  rewrite (vget_ok outb (cf_pd f) 0%R) by lia. cbn [bind].
  rewrite (vget_ok outb _ 0%R Lprev). cbn [bind]. rewrite G0, G1.
  set (pd' := if cf_pd f + 1 <? length (c_den s) - 1 then _ else _).
  assert (Hpd' : pd' < length outb) by (subst pd'; destruct (Nat.ltb_spec (cf_pd f + 1) (length (c_den s) - 1)); lia).
  unfold vset. rewrite (proj2 (Nat.ltb_lt _ _) Hpd'). cbn [bind].
  do 2 eexists. split; [reflexivity|]. split.
  - cbn [cspec_step c_outs]. fold pre. fold y. rewrite Hdt. reflexivity.
  - unfold crel. cbn [cspec_step c_num c_den c_pre c_xs c_ys cf_dt cf_num cf_den cf_first cf_pn cf_pd cf_in cf_out].
    fold pre. fold y. rewrite !upd_length.
    repeat split; auto.
    + destruct (Nat.ltb_spec (cf_pn f + 1) (length (c_num s))); lia.
    + rewrite upd_length, before_next by lia. lia.
    + destruct Rin' as [_ H']. rewrite before_next by lia. exact H'.
    + rewrite upd_length. exact Hpd'.
    + assert (Rp : ring (upd outb pd' y) pd' (y :: c_ys s) (dc_gain (c_num s) (c_den s) pre)).
      { eapply ring_push; [exact Rout| | lia]. rewrite Lout. symmetry. apply before_next. lia. }
      apply Rp.
Qed.

Lemma cf_switch_spec dt f s num den :
  crel dt f s -> sized num den -> let s' := cspec_step dt s (CSwitch num den) in
  exists f', cf_switch f num den = Ok f' /\ c_outs s' = c_outs s /\ crel dt f' s'.
Proof.
  intros (Hdt & Hnum & Hden & (Hm & Hn) & Hli & Hlo & Hst) [Hm' Hn']. cbn zeta.
  unfold cf_switch.
  assert (Hpn : cf_pn f < length (cf_in f)).
  { destruct (c_pre s) as [p|].
    - destruct Hst as (_ & E & _). lia.
    - destruct Hst as (_ & _ & _ & E & _). lia. }
  rewrite (vget_ok (cf_in f) (cf_pn f) 0%R) by lia. cbn [bind].
  eexists. split; [reflexivity|]. unfold cspec_step.
  destruct (c_pre s) as [p|].
  - split; [reflexivity|]. unfold crel. cbn -[before].
    rewrite !repeat_length. destruct Hst as (Ef & Hp & Rin & Rout).
    assert (EC : nth (cf_pn f) (cf_in f) 0%R = nth (length (c_num s) - 1) (c_xs s) p).
    { destruct Rin as [_ H']. rewrite <- H' by lia. rewrite Hli in Hpn.
      (* the oldest element of the ring is at the write position *)
      assert (GG : forall q, q < length (cf_in f) -> nth (length (c_num s) - 1) (cv (cf_in f) (before q (length (c_num s)))) 0%R = nth q (cf_in f) 0%R).
      { intros q Hq. unfold cv, before. destruct (Nat.eqb_spec q 0) as [->|Hq0].
        - replace (length (c_num s) - 1 + 1) with (length (cf_in f)) by lia.
          rewrite firstn_all, skipn_all. simpl rev. rewrite app_nil_r.
          rewrite rev_nth by lia. f_equal. lia.
        - replace (q - 1 + 1) with q by lia.
          rewrite app_nth2 by (rewrite rev_length, firstn_length; lia).
          rewrite rev_length, firstn_length.
          rewrite rev_nth by (rewrite skipn_length; lia). rewrite nth_skipn_f, skipn_length. f_equal. lia. }
      rewrite GG by lia. reflexivity. }
    rewrite EC, Ef. repeat split; auto; try lia.
    + rewrite repeat_length. unfold before. simpl. lia.
    + intros j Hj. rewrite repeat_length in Hj. rewrite cv_repeat, nth_repeat_lt by lia. destruct j; reflexivity.
    + rewrite repeat_length. lia.
    + intros j Hj. rewrite repeat_length in Hj. rewrite cv_repeat, nth_repeat_lt by lia. destruct j; reflexivity.
  - split; [reflexivity|]. unfold crel. cbn. rewrite !repeat_length.
    destruct Hst as (Ef & Ex & Ey & Ep & Eq). repeat split; auto.
Qed.

(** C43/C44. For every history of samples and coefficient changes, the
    filter is defined and its three outputs are those of the
    specification: no dependence on the layout of the ring buffers.
    Missing: the second derivative for a denominator of size 2; false of
    the code. *)
Theorem causal_refines_partial (dt : R) (num den : list R) (h : list cf_event) :
  sized num den -> Forall event_sized h ->
  exists f, cf_run dt num den h
            = Ok (f, c_outs (fold_left (cspec_step dt) h (cspec_new num den))).
Proof.
  intros Hs Hh. unfold cf_run.
  assert (H0 : crel dt (cf_new dt num den) (cspec_new num den)).
  { unfold crel. cbn. rewrite !repeat_length. destruct Hs. repeat split; auto. }
  assert (G : forall h f s, Forall event_sized h -> crel dt f s ->
    exists f', ofold cf_ev h (f, c_outs s) = Ok (f', c_outs (fold_left (cspec_step dt) h s))).
  { clear. induction h as [|e h IH]; intros f s HF HR.
    - exists f. reflexivity.
    - pose proof (Forall_inv HF) as He. apply Forall_inv_tail in HF.
      cbn [ofold fold_left]. destruct e as [x|nu de].
      + destruct (cf_step_spec dt f s x HR) as (f' & o & E & Eo & HR').
        unfold cf_ev at 1. rewrite E. cbn [bind]. rewrite <- Eo. apply IH; auto.
      + destruct (cf_switch_spec dt f s nu de HR He) as (f' & E & Eo & HR').
        unfold cf_ev at 1. rewrite E. cbn [bind]. rewrite <- Eo. apply IH; auto. }
  exact (G h _ _ Hh H0).
Qed.

(* ------------------------------------------------------------------ *)
(** * Time-ordered reading *)

(** [x_(k-j)] in the time-ordered list [l], or [pre] before its start. *)
Definition lag (pre : R) (l : list R) (k j : nat) : R :=
  if j <=? k then nth (k - j) l 0%R else pre.

Definition y_of (o : R * R * R) : R := fst (fst o).
Definition dx_of (o : R * R * R) : R := snd (fst o).
Definition ddx_of (o : R * R * R) : R := snd o.
Definition out0 : R * R * R := (0, 0, 0)%R.

Lemma nth_rev_lag (l : list R) k j pre : S k = length l ->
  nth j (rev l) pre = lag pre l k j.
Proof.
  intros H. unfold lag. destruct (Nat.leb_spec j k).
  - rewrite (nth_indep _ pre 0%R) by (rewrite rev_length; lia). rewrite rev_nth by lia. f_equal. lia.
  - apply nth_overflow. rewrite rev_length. lia.
Qed.

Lemma lag_app pre l l' k j : k < length l -> lag pre (l ++ l') k j = lag pre l k j.
Proof. intros H. unfold lag. destruct (j <=? k); auto. rewrite app_nth1 by lia. reflexivity. Qed.

Lemma lag_S pre l k j y : k = length l -> lag pre (l ++ [y]) k (S j) = nth j (rev l) pre.
Proof.
  intros ->. unfold lag. destruct l as [|a l0] eqn:El.
  - simpl. destruct j; reflexivity.
  - rewrite <- El. assert (length l > 0) by (subst; simpl; lia). clear El l0 a.
    rewrite (nth_rev_lag l (length l - 1)) by lia. unfold lag.
    destruct (Nat.leb_spec (S j) (length l)), (Nat.leb_spec j (length l - 1)); try lia; auto.
    rewrite app_nth1 by lia. f_equal. lia.
Qed.

(** The triples produced for samples [xs] from a filter whose prehistory is [pre]. *)
Definition difference_equation (dt : R) (num den : list R) (pre : R) (xs : list R)
    (outs : list (R * R * R)) : Prop :=
  length outs = length xs /\
  let ys := map y_of outs in
  let y0 := dc_gain num den pre in
  forall k, k < length xs ->
    (* den_0 y_k + den_1 y_(k-1) + ... = num_0 x_k + num_1 x_(k-1) + ... *)
    sum_lt (length den) (fun j => nth j den 0 * lag y0 ys k j)%R
      = sum_lt (length num) (fun j => nth j num 0 * lag pre xs k j)%R /\
    (* first and second finite differences of the output *)
    dx_of (nth k outs out0) = ((lag y0 ys k 0 - lag y0 ys k 1) / dt)%R /\
    (3 <= length den ->
     ddx_of (nth k outs out0) = ((lag y0 ys k 0 - 2 * lag y0 ys k 1 + lag y0 ys k 2) / (dt * dt))%R).

Lemma spec_difference dt num den pre base zs :
  sized num den -> nth 0 den 0%R <> 0%R -> dt <> 0%R ->
  forall xs outs,
    difference_equation dt num den pre xs outs ->
    exists outs',
      c_outs (fold_left (cspec_step dt) (map CSample zs)
                (mkCspec num den (Some pre) (rev xs) (rev (map y_of outs)) (base ++ outs)))
      = base ++ outs' /\ difference_equation dt num den pre (xs ++ zs) outs'.
Proof.
  intros Hs Hd Hdt. induction zs as [|z zs IH]; intros xs outs HD.
  - exists outs. rewrite app_nil_r. split; auto.
  - cbn [map fold_left cspec_step c_pre c_num c_den c_xs c_ys c_outs].
    set (y := next_output num den pre (z :: rev xs) (rev (map y_of outs))).
    set (o := (y, _, _)).
    replace (z :: rev xs) with (rev (xs ++ [z])) by (rewrite rev_app_distr; reflexivity).
    replace (y :: rev (map y_of outs)) with (rev (map y_of (outs ++ [o])))
      by (rewrite map_app, rev_app_distr; reflexivity).
    rewrite <- app_assoc.
    destruct (IH (xs ++ [z]) (outs ++ [o])) as (outs' & E & HD').
    + destruct HD as [HL HK]. split; [rewrite !app_length; simpl; lia|].
      cbn zeta in *. intros k Hk. rewrite app_length in Hk. simpl in Hk.
      rewrite map_app.
      destruct (Nat.lt_ge_cases k (length xs)) as [Hlt|Hge].
      * rewrite !(lag_app _ (map y_of outs)) by (rewrite map_length; lia).
        rewrite app_nth1 by lia. destruct (HK k Hlt) as (A & B & C).
        split; [|split; auto].
        erewrite sum_lt_ext; [|intros i Hi; rewrite lag_app by (rewrite map_length; lia); reflexivity].
        rewrite A. apply sum_lt_ext. intros i Hi. rewrite lag_app by lia. reflexivity.
      * assert (k = length xs) by lia. subst k.
        assert (Hy0 : lag (dc_gain num den pre) (map y_of outs ++ map y_of [o]) (length xs) 0 = y).
        { unfold lag. simpl. rewrite app_nth2 by (rewrite map_length; lia).
          rewrite map_length, HL, Nat.sub_0_r, Nat.sub_diag. reflexivity. }
        assert (HyS : forall j, lag (dc_gain num den pre) (map y_of outs ++ map y_of [o]) (length xs) (S j)
                      = nth j (rev (map y_of outs)) (dc_gain num den pre)).
        { intros j. apply lag_S. rewrite map_length. lia. }
        rewrite app_nth2 by lia. rewrite HL, Nat.sub_diag. cbn [nth].
        rewrite !HyS, Hy0. split; [|split].
        -- destruct (length den) as [|n] eqn:En; [destruct Hs; lia|].
           rewrite sum_lt_S_l, Hy0.
           erewrite (sum_lt_ext n); [|intros i Hi; rewrite HyS; reflexivity].
           unfold y, next_output. rewrite En. simpl (S n - 1). rewrite Nat.sub_0_r.
           erewrite (sum_lt_ext (length num) (fun j => nth j num 0 * lag pre (xs ++ [z]) (length xs) j)%R).
           2:{ intros i Hi. rewrite <- nth_rev_lag by (rewrite app_length; simpl; lia).
               rewrite rev_app_distr. reflexivity. }
           cbn [rev app].
           match goal with |- (?d * (?A / ?d') + ?B = ?C)%R => change A with (C - B)%R end.
           field. exact Hd.
        -- unfold o, dx_of. simpl snd. simpl fst. reflexivity.
        -- intros H3. unfold o, ddx_of. simpl snd.
           destruct (Nat.eqb_spec (length den) 2); [lia|]. field. exact Hdt.
    + exists outs'. rewrite <- app_assoc in HD'. split; [exact E|exact HD'].
Qed.

(** C43 and C44: the difference equation and the finite differences, at every step and
    for every input sequence, the prehistory being held at the first sample.  Missing: denominators
    of size one (causal_fir_refuted). *)
Theorem causal_difference_equation_partial (dt : R) (num den xs : list R) :
  sized num den -> nth 0 den 0%R <> 0%R -> dt <> 0%R ->
  exists f outs, cf_run dt num den (map CSample xs) = Ok (f, outs) /\
    difference_equation dt num den (nth 0 xs 0%R) xs outs.
Proof.
  intros Hs Hd Hdt.
  destruct (causal_refines_partial dt num den (map CSample xs) Hs) as (f & E).
  { apply Forall_forall. intros e He. apply in_map_iff in He. destruct He as (x & <- & _). exact I. }
  destruct xs as [|x xs].
  - exists f, []. split; [exact E|]. split; [reflexivity|]. simpl. intros; lia.
  - destruct (spec_difference dt num den x [] (x :: xs) Hs Hd Hdt [] []) as (outs & Eo & HD).
    { split; [reflexivity|]. simpl. intros; lia. }
    exists f, outs. rewrite E. split; [|exact HD].
    do 2 f_equal. cbn in Eo |- *. exact Eo.
Qed.

(** After a change of coefficients the outputs obey the new difference equation, with
    the prehistory held at the sample received [length num - 1] samples before the last
    one (the oldest sample stored). *)
Theorem causal_switch (dt : R) (num den num' den' xs zs : list R) :
  sized num den -> sized num' den' -> nth 0 den' 0%R <> 0%R -> dt <> 0%R -> xs <> [] ->
  exists f outs outs',
    cf_run dt num den (map CSample xs ++ CSwitch num' den' :: map CSample zs) = Ok (f, outs ++ outs') /\
    length outs = length xs /\
    difference_equation dt num' den'
      (lag (nth 0 xs 0%R) xs (length xs - 1) (length num - 1)) zs outs'.
Proof.
  intros Hs Hs' Hd Hdt Hne.
  destruct (causal_refines_partial dt num den (map CSample xs ++ CSwitch num' den' :: map CSample zs) Hs) as (f & E).
  { apply Forall_app. split; [|constructor; [exact Hs'|]];
    apply Forall_forall; intros e He; apply in_map_iff in He; destruct He as (x & <- & _); exact I. }
  rewrite fold_left_app in E. cbn [fold_left] in E.
  set (s1 := fold_left (cspec_step dt) (map CSample xs) (cspec_new num den)) in E.
  assert (H1 : c_num s1 = num /\ c_den s1 = den /\ c_pre s1 = Some (nth 0 xs 0%R) /\ c_xs s1 = rev xs
               /\ length (c_outs s1) = length xs).
  { subst s1. destruct xs as [|x xs]; [congruence|]. cbn [map fold_left cspec_step cspec_new c_pre c_num c_den c_xs c_ys c_outs nth].
    set (s := mkCspec _ _ _ _ _ _).
    assert (H0 : c_num s = num /\ c_den s = den /\ c_pre s = Some x /\ c_xs s = rev [x] /\ length (c_outs s) = length [x])
      by (subst s; simpl; auto).
    clearbody s. replace (x :: xs) with ([x] ++ xs) by reflexivity. revert H0. generalize [x] as ps. revert s.
    clear. induction xs as [|z xs IH]; intros s ps (A & B & C & D & F).
    - simpl. rewrite app_nil_r. auto.
    - cbn [map fold_left]. replace (ps ++ z :: xs) with ((ps ++ [z]) ++ xs) by (rewrite <- app_assoc; reflexivity).
      apply IH. cbn. rewrite C, D, A, B, !app_length, rev_app_distr. simpl. rewrite F. auto. }
  destruct H1 as (A & B & C & D & F).
  cbn [cspec_step] in E. rewrite C, A, D in E.
  rewrite (nth_rev_lag xs (length xs - 1)) in E by (destruct xs; [congruence|simpl; lia]).
  destruct (spec_difference dt num' den' (lag (nth 0 xs 0%R) xs (length xs - 1) (length num - 1))
              (c_outs s1) zs Hs' Hd Hdt [] []) as (outs' & Eo & HD).
  { split; [reflexivity|]. simpl. intros; lia. }
  exists f, (c_outs s1), outs'. split; [|split; [exact F|exact HD]].
  rewrite E. do 2 f_equal. rewrite <- Eo. simpl. rewrite app_nil_r. reflexivity.
Qed.

(** The difference equation determines the outputs: two sequences satisfying it for the
    same inputs are equal. *)
Lemma difference_unique dt num den pre xs outs outs' :
  sized num den -> nth 0 den 0%R <> 0%R -> 3 <= length den ->
  difference_equation dt num den pre xs outs -> difference_equation dt num den pre xs outs' ->
  outs = outs'.
Proof.
  intros [Hm Hn] Hd H3 [HL H] [HL' H']. cbn zeta in *.
  set (y0 := dc_gain num den pre) in *.
  assert (HY : forall k, k < length xs -> nth k (map y_of outs) 0%R = nth k (map y_of outs') 0%R).
  { intros k. induction k as [k IH] using (well_founded_induction lt_wf). intros Hk.
    destruct (H k Hk) as (A & _). destruct (H' k Hk) as (A' & _).
    rewrite <- A' in A. destruct (length den) as [|n] eqn:En; [lia|].
    rewrite !sum_lt_S_l in A. unfold lag in A at 1 3. simpl Nat.leb in A. cbn iota in A.
    rewrite !Nat.sub_0_r in A.
    rewrite (sum_lt_ext n _ (fun j => nth (S j) den 0 * lag y0 (map y_of outs') k (S j))%R) in A.
    - apply (Rmult_eq_reg_l (nth 0 den 0%R)); [lra|exact Hd].
    - intros j Hj. unfold lag. destruct (Nat.leb_spec (S j) k); auto. rewrite IH by lia. reflexivity. }
  assert (HM : map y_of outs = map y_of outs').
  { apply (list_eq_nth 0%R); rewrite !map_length; [lia|]. intros i Hi. apply HY. lia. }
  apply (list_eq_nth out0); [lia|]. intros k Hk. rewrite HL in Hk.
  destruct (H k Hk) as (_ & B & C). destruct (H' k Hk) as (_ & B' & C').
  rewrite HM in B, C. rewrite <- B' in B. rewrite <- (C' H3) in C. specialize (C H3).
  specialize (HY k Hk). change 0%R with (y_of out0) in HY. rewrite !map_nth in HY.
  destruct (nth k outs out0) as [[a b] c], (nth k outs' out0) as [[a' b'] c'].
  unfold y_of, dx_of, ddx_of in *. simpl in *. congruence.
Qed.

Lemma rsum_sum_lt l c : sum_lt (length l) (fun j => nth j l 0 * c)%R = (rsum l * c)%R.
Proof.
  induction l as [|a l IH]; [simpl; lra|]. cbn [length]. rewrite sum_lt_S_l. cbn [nth].
  rewrite IH. unfold rsum. simpl. lra.
Qed.

(** C43, constant inputs: the output is constant, equal to the static gain times the
    input, and both derivatives vanish, from the first sample on. *)
Theorem causal_steady_state (dt : R) (num den : list R) (c : R) (n : nat) :
  sized num den -> nth 0 den 0%R <> 0%R -> dt <> 0%R -> rsum den <> 0%R ->
  exists f, cf_run dt num den (map CSample (repeat c n))
            = Ok (f, repeat ((c * rsum num / rsum den)%R, 0%R, 0%R) n).
Proof.
  intros Hs Hd Hdt Hsum.
  destruct (causal_refines_partial dt num den (map CSample (repeat c n)) Hs) as (f & E).
  { apply Forall_forall. intros e He. apply in_map_iff in He. destruct He as (x & <- & _). exact I. }
  exists f. rewrite E. do 2 f_equal. clear E f.
  set (y0 := (c * rsum num / rsum den)%R).
  assert (HN : forall i, next_output num den c (repeat c (S i)) (repeat y0 i) = y0).
  { intros i. unfold next_output. fold y0. unfold dc_gain. fold y0.
    rewrite (sum_lt_ext _ _ (fun j => nth j num 0 * c)%R).
    2:{ intros j _. f_equal. destruct (Nat.lt_ge_cases j (S i)).
        - apply nth_repeat_lt. lia.
        - apply nth_overflow. rewrite repeat_length. lia. }
    rewrite (sum_lt_ext (length den - 1) _ (fun j => nth j (tl den) 0 * y0)%R).
    2:{ intros j _. destruct (Nat.lt_ge_cases j i).
        - rewrite nth_repeat_lt by lia. destruct den; simpl; auto. destruct j; reflexivity.
        - rewrite (nth_overflow (repeat y0 i)) by (rewrite repeat_length; lia). destruct den; simpl; auto. destruct j; reflexivity. }
    rewrite rsum_sum_lt.
    replace (length den - 1) with (length (tl den)) by (destruct den; simpl; lia).
    rewrite rsum_sum_lt. destruct den as [|d0 den]; [destruct Hs; simpl in *; lia|].
    assert (Ed : rsum (d0 :: den) = (d0 + rsum den)%R) by reflexivity.
    unfold y0. rewrite Ed in *. cbn [nth tl] in *. field. auto. }
  assert (HG : forall m i, c_outs (fold_left (cspec_step dt) (map CSample (repeat c m))
                (mkCspec num den (Some c) (repeat c i) (repeat y0 i) (repeat (y0, 0, 0)%R i)))
              = repeat (y0, 0, 0)%R (m + i)).
  { induction m as [|m IH]; intros i; [reflexivity|].
    cbn [repeat map fold_left cspec_step c_pre c_num c_den c_xs c_ys c_outs].
    change (c :: repeat c i) with (repeat c (S i)). rewrite HN.
    assert (EN : forall j, nth j (repeat y0 i) (dc_gain num den c) = y0).
    { intros j. destruct (Nat.lt_ge_cases j i).
      - apply nth_repeat_lt. lia.
      - rewrite nth_overflow by (rewrite repeat_length; lia). reflexivity. }
    rewrite !EN.
    replace ((y0 - y0) / dt)%R with 0%R by (field; auto).
    replace ((y0 - 2 * y0 + (if length den =? 2 then y0 else y0)) / dt / dt)%R with 0%R
      by (destruct (length den =? 2); field; auto).
    replace (repeat (y0, 0%R, 0%R) i ++ [(y0, 0%R, 0%R)]) with (repeat (y0, 0%R, 0%R) (S i))
      by (rewrite <- repeat_cons; reflexivity).
    change (y0 :: repeat y0 i) with (repeat y0 (S i)).
    rewrite IH. rewrite <- Nat.add_succ_comm. reflexivity. }
  destruct n as [|n]; [reflexivity|].
  cbn [repeat map fold_left]. specialize (HG (S n) 0).
  cbn [repeat map fold_left] in HG. rewrite Nat.add_0_r in HG.
  cbn [repeat] in HG. exact HG.
Qed.

(** Finding (C44): with a denominator of size two the second derivative is computed
    with the last output in place of the one before it. *)
Theorem causal_ddx_order_two_refuted :
  exists dt num den xs f outs,
    sized num den /\ nth 0 den 0%R <> 0%R /\ dt <> 0%R /\ length xs = 3 /\
    cf_run dt num den (map CSample xs) = Ok (f, outs) /\
    ddx_of (nth 2 outs out0)
      <> ((y_of (nth 2 outs out0) - 2 * y_of (nth 1 outs out0) + y_of (nth 0 outs out0)) / (dt * dt))%R.
Proof.
  exists 1%R, [1%R], [1%R; 0%R], [0; 1; 2]%R.
  destruct (causal_refines_partial 1 [1%R] [1%R; 0%R] (map CSample [0; 1; 2]%R)) as (f & E).
  - split; simpl; lia.
  - repeat constructor.
  - exists f. eexists. split; [split; simpl; lia|]. split; [simpl; lra|]. split; [lra|].
    split; [reflexivity|]. split; [exact E|].
    unfold ddx_of, y_of. cbn. unfold next_output, dc_gain. simpl. intros H. field_simplify in H. lra.
Qed.

(** Finding: changing the coefficients restarts the filter from the oldest stored
    sample, not from the current one; the output jumps although the input is steady at
    its new value. *)
Theorem causal_switch_oldest_refuted :
  exists dt num den xs last f outs o,
    sized num den /\ nth 0 den 0%R <> 0%R /\ dt <> 0%R /\
    cf_run dt num den (map CSample (xs ++ [last]) ++ [CSwitch num den; CSample last]) = Ok (f, outs ++ [o]) /\
    length outs = length xs + 1 /\
    (* the output expected from a filter whose prehistory is the current input *)
    y_of o <> dc_gain num den last.
Proof.
  exists 1%R, [1%R; 1%R], [1%R; 0%R], [0%R], 1%R.
  destruct (causal_refines_partial 1 [1%R; 1%R] [1%R; 0%R]
              (map CSample ([0%R] ++ [1%R]) ++ [CSwitch [1%R; 1%R] [1%R; 0%R]; CSample 1%R])) as (f & E).
  - split; simpl; lia.
  - cbn. repeat constructor.
  - exists f. match type of E with _ = Ok (_, ?l) => set (l0 := l) in E end.
    exists (removelast l0), (last l0 out0). subst l0.
    split; [split; simpl; lia|]. split; [simpl; lra|]. split; [lra|].
    split.
    + rewrite E. do 2 f_equal.
    + split; [reflexivity|]. unfold y_of. cbn. unfold next_output, dc_gain. simpl. lra.
Qed.

(** Finding: a denominator of size one (a FIR filter) is accepted by the constructor
    and undefined at the first sample. *)
Theorem causal_fir_refuted (dt : R) (num : list R) (d x : R) :
  cf_run dt num [d] [CSample x] = UB.
Proof. unfold cf_run. cbn. unfold cf_step. cbn. rewrite orb_true_r. reflexivity. Qed.

(** Non-vacuity of the difference equation: a Butterworth-like filter. *)
Example causal_example :
  exists f outs, cf_run (1 / 1000) [1; 2; 1]%R [4; -2; 1]%R (map CSample [0; 8; 8]%R) = Ok (f, outs) /\
    y_of (nth 1 outs out0) = 2%R /\ y_of (nth 2 outs out0) = 7%R.
Proof.
  destruct (causal_refines_partial (1 / 1000) [1; 2; 1]%R [4; -2; 1]%R (map CSample [0; 8; 8]%R)) as (f & E).
  - split; simpl; lia.
  - repeat constructor.
  - exists f. eexists. split; [exact E|]. unfold y_of. cbn. unfold next_output, dc_gain. simpl. split; field.
Qed.

Print Assumptions causal_refines_partial.
Print Assumptions causal_difference_equation_partial.
Print Assumptions causal_switch.
Print Assumptions causal_steady_state.
Print Assumptions causal_ddx_order_two_refuted.
Print Assumptions causal_switch_oldest_refuted.
Print Assumptions causal_fir_refuted.
