(** Task bounds: properties C21, C22. *)
From Coq Require Import String Ascii List Arith Lia ZArith Bool.
From Verif Require Import Base Bound_Model.
Import ListNotations.

(** ** C21 *)

(** What a bound is for its user: one value, or an optional lower and upper one. *)
Inductive bound (num : Type) :=
| Single (v : num)
| Double (inf sup : option num).
Arguments Single {num}. Arguments Double {num}.

(** Effect of each command: changing from single to double forgets everything. *)
Definition bound_after {num} (b : bound num) (c : bcmd num) : bound num :=
  match c, b with
  | BSetSingle v, _ => Single v
  | BSetDouble BOUND_INF v, Single _ => Double (Some v) None
  | BSetDouble BOUND_SUP v, Single _ => Double None (Some v)
  | BSetDouble BOUND_INF v, Double _ s => Double (Some v) s
  | BSetDouble BOUND_SUP v, Double i _ => Double i (Some v)
  | BUnset _, Single _ => Double None None
  | BUnset BOUND_INF, Double _ s => Double None s
  | BUnset BOUND_SUP, Double i _ => Double i None
  end.

(** Everything the accessors can tell about a bound. *)
Definition observes {num} (m : MultiBound num) (b : bound num) : Prop :=
  match b with
  | Single v =>
      bmode m = MODE_SINGLE /\ getSingleBound m = Ok v /\
      (forall s, getDoubleBound m s = Throw "BOUND_TYPE" /\
                 getDoubleBoundSetup m s = Throw "BOUND_TYPE")
  | Double i s =>
      bmode m = MODE_DOUBLE /\ getSingleBound m = Throw "BOUND_TYPE" /\
      getDoubleBound m BOUND_INF = (match i with Some v => Ok v | None => Throw "BOUND_TYPE" end) /\
      getDoubleBound m BOUND_SUP = (match s with Some v => Ok v | None => Throw "BOUND_TYPE" end) /\
      getDoubleBoundSetup m BOUND_INF = Ok (match i with Some _ => true | None => false end) /\
      getDoubleBoundSetup m BOUND_SUP = Ok (match s with Some _ => true | None => false end)
  end.

(** What is read back after any history is what the history says. *)
Theorem bound_history {num} (m : MultiBound num) (b : bound num) (h : list (bcmd num)) :
  observes m b -> observes (fold_left bexec h m) (fold_left bound_after h b).
Proof.
  revert m b; induction h as [|c h IH]; intros m b H; simpl; auto.
  apply IH. clear IH h.
  destruct m as [md sg su inf ssu sin].
  destruct b as [v|i s].
  - destruct H as (H1 & H2 & H3). simpl in H1; subst md.
    destruct c as [w|[] w|[]]; cbn; repeat split.
  - destruct H as (H1 & H2 & H3 & H4 & H5 & H6). simpl in H1; subst md.
    cbn in *.
    destruct c as [w|[] w|[]]; cbn; repeat split; auto.
Qed.

(** Every bound is seen as one of the two kinds, and constructors are as documented. *)
Theorem bound_constructors {num} (zero x y : num) :
  observes (mb_single zero x) (Single x) /\
  observes (mb_double zero x y) (Double (Some x) (Some y)) /\
  observes (mb_half zero x BOUND_INF) (Double (Some x) None) /\
  observes (mb_half zero x BOUND_SUP) (Double None (Some x)).
Proof. cbn. repeat split. Qed.

Theorem bound_is_single_or_double {num} (m : MultiBound num) : exists b, observes m b.
Proof.
  destruct m as [[] sg su inf [] []].
  1-4: exists (Single sg); cbn; repeat split.
  - exists (Double (Some inf) (Some su)); cbn; repeat split.
  - exists (Double None (Some su)); cbn; repeat split.
  - exists (Double (Some inf) None); cbn; repeat split.
  - exists (Double None None); cbn; repeat split.
Qed.

Example bound_history_example :
  observes (fold_left bexec [BSetDouble BOUND_INF 3; BSetSingle 4; BSetDouble BOUND_SUP 5]
              (mb_single 0 1)) (Double None (Some 5)).
Proof. cbn. repeat split. Qed.

(** ** C22 *)

(** What is assumed of number input and output: a printed number is at least one
    character, does not start like a bound or an absent bound, and reading what was
    printed, when what follows cannot continue a number, gives back the number as
    printed ([rnd], printing rounds) and leaves the rest. *)
Definition stops (s : list ascii) : Prop :=
  s = [] \/ exists c r, s = c :: r /\ (c = "," \/ c = ")" \/ c = "]")%char.

Record num_io {num} (rnd : num -> num) (pr : num -> list ascii)
    (rd : list ascii -> option (num * list ascii)) : Prop := {
  io_read : forall x rest, stops rest -> rd (pr x ++ rest)%list = Some (rnd x, rest);
  io_some : forall x, pr x <> [];
  io_paren : forall x r, pr x <> ("(" :: r)%char;
  io_dash : forall x r rest, (pr x ++ rest)%list <> ("-" :: "-" :: r)%char
}.

(** A bound with printed (rounded) values. *)
Definition rounded {num} (rnd : num -> num) (b : bound num) : bound num :=
  match b with
  | Single v => Single (rnd v)
  | Double i s => Double (option_map rnd i) (option_map rnd s)
  end.

Section ReadBack.
Context {num : Type} (zero : num) (rnd : num -> num).
Context (pr : num -> list ascii) (rd : list ascii -> option (num * list ascii)).
Hypothesis IO : num_io rnd pr rd.

Lemma get_num_pr x rest : stops rest -> get_num rd (pr x ++ rest)%list = Ok (rnd x, rest).
Proof. intros H. unfold get_num. rewrite (io_read _ _ _ IO x rest H). reflexivity. Qed.

Lemma read_side_num b m x c rest : stops (c :: rest) ->
  read_side rd b m (pr x ++ c :: rest)%list = Ok (setDoubleBound m b (rnd x), c :: rest).
Proof.
  intros Hs. unfold read_side.
  destruct (pr x) as [|a p] eqn:E; [destruct (io_some _ _ _ IO x E)|].
  assert (Hd : exists a2 r2, (a :: p ++ c :: rest)%list = a :: a2 :: r2).
  { destruct p; simpl; eauto. }
  destruct Hd as (a2 & r2 & Hd). simpl app. rewrite Hd. simpl.
  assert (HH : (a =? "-")%char && (a2 =? "-")%char = false).
  { destruct (Ascii.eqb_spec a "-"), (Ascii.eqb_spec a2 "-"); auto. subst.
    exfalso. apply (io_dash _ _ _ IO x r2 (c :: rest)). rewrite E. exact Hd. }
  rewrite HH, <- Hd.
  change (a :: p ++ c :: rest)%list with ((a :: p) ++ c :: rest)%list.
  rewrite <- E, get_num_pr by exact Hs. reflexivity.
Qed.

Lemma read_bound_print m m0 b rest :
  observes m b -> stops rest ->
  exists m', read_bound rd m0 (print_bound pr m ++ rest)%list = Ok (m', rest) /\
             observes m' (rounded rnd b).
Proof.
  intros Hm Hs. destruct m as [md sg su inf ssu sin], b as [v|i s].
  - destruct Hm as (H1 & H2 & _). simpl in H1; subst md. cbn in H2. injection H2 as ->.
    cbn [print_bound bmode]. unfold print_bound; simpl.
    destruct (pr v) as [|a p] eqn:E; [destruct (io_some _ _ _ IO v E)|].
    unfold read_bound; simpl.
    destruct (Ascii.eqb_spec a "(").
    { subst. destruct (io_paren _ _ _ IO v p E). }
    change (a :: p ++ rest)%list with ((a :: p) ++ rest)%list.
    rewrite <- E, get_num_pr by exact Hs. simpl. eexists; split; [reflexivity|].
    cbn. repeat split.
  - destruct Hm as (H1 & H2 & H3 & H4 & H5 & H6). simpl in H1; subst md. cbn in H3, H4, H5, H6.
    assert (Ep : (print_bound pr (mkMB MODE_DOUBLE sg su inf ssu sin) ++ rest =
      "(" :: (if sin then pr inf else chars "--") ++ "," :: ((if ssu then pr su else chars "--") ++ ")" :: rest))%list%char).
    { unfold print_bound. cbn [bmode boundInfSetup boundSupSetup boundInf boundSup].
      rewrite <- !app_assoc. reflexivity. }
    rewrite Ep. clear Ep. unfold read_bound. cbn [get_char bind].
    change (("(" =? "(")%char) with true. cbv iota.
    assert (Hcomma : forall r, stops ("," :: r)%char).
    { intros r. right. exists ","%char, r. auto. }
    assert (Hpar : forall r, stops (")" :: r)%char).
    { intros r. right. exists ")"%char, r. auto. }
    assert (Hfirst : exists m1,
      read_side rd BOUND_INF m0
        ((if sin then pr inf else chars "--") ++ "," :: ((if ssu then pr su else chars "--") ++ ")" :: rest))%list%char
      = Ok (m1, ("," :: ((if ssu then pr su else chars "--") ++ ")" :: rest))%list%char)
      /\ exists s0, observes m1 (Double (if sin then Some (rnd inf) else None) s0)).
    { destruct sin.
      - eexists; split; [apply read_side_num; apply Hcomma|].
        destruct m0 as [[] ? ? ? [] []]; cbn.
        1-4: exists None; repeat split.
        1-2: eexists (Some _); repeat split.
        1-2: exists None; repeat split.
      - eexists; split; [reflexivity|].
        destruct m0 as [[] ? ? ? [] []]; cbn.
        1-4: exists None; repeat split.
        1-2: eexists (Some _); repeat split.
        1-2: exists None; repeat split. }
    destruct Hfirst as (m1 & E1 & s0 & Hm1).
    rewrite E1. unfold expect at 1. cbn [bind get_char]. rewrite Ascii.eqb_refl. cbn [bind].
    assert (Hsecond : exists m2,
      read_side rd BOUND_SUP m1 ((if ssu then pr su else chars "--") ++ ")" :: rest)%list%char
      = Ok (m2, (")" :: rest)%list%char)
      /\ observes m2 (Double (if sin then Some (rnd inf) else None) (if ssu then Some (rnd su) else None))).
    { destruct ssu.
      - eexists; split; [apply read_side_num; apply Hpar|].
        apply (bound_history m1 _ [BSetDouble BOUND_SUP (rnd su)] Hm1).
      - eexists; split; [reflexivity|].
        apply (bound_history m1 _ [BUnset BOUND_SUP] Hm1). }
    destruct Hsecond as (m2 & E2 & Hm2). rewrite E2. simpl.
    exists m2; split; [reflexivity|].
    destruct i as [vi|], sin; try discriminate; destruct s as [vs|], ssu; try discriminate;
      cbn [rounded option_map]; try exact Hm2.
    all: repeat match goal with H : Ok _ = Ok _ |- _ => injection H as <- end; exact Hm2.
Qed.

(** Reading a printed bound, over whatever bound was there, gives the same bound. *)
Theorem bound_print_read m m0 b rest :
  observes m b -> stops rest ->
  exists m', read_bound rd m0 (print_bound pr m ++ rest)%list = Ok (m', rest) /\
             observes m' (rounded rnd b).
Proof. exact (read_bound_print m m0 b rest). Qed.

Lemma read_list_print vs bs olds rest :
  vs <> [] -> length olds = length vs -> Forall2 observes vs bs ->
  exists vs', read_list rd olds (print_list pr true vs ++ ")" :: rest)%list%char = Ok (vs', rest)
              /\ Forall2 observes vs' (map (rounded rnd) bs).
Proof.
  intros Hne HL HF. revert olds HL Hne.
  induction HF as [|m b vs bs Hmb HF IH]; intros olds HL Hne; [congruence|].
  destruct olds as [|o olds]; [discriminate|]. simpl in HL. injection HL as HL.
  cbn [print_list read_list]. simpl app.
  destruct vs as [|m2 vs].
  - destruct olds; [|discriminate]. cbn [print_list].
    rewrite app_nil_r.
    destruct (read_bound_print m o b (")" :: rest)%char Hmb) as (m' & E & Hm').
    { right. exists ")"%char, rest. auto. }
    rewrite E. simpl. eexists; split; [reflexivity|].
    inversion HF; subst. constructor; auto.
  - change (print_list pr false (m2 :: vs)) with ("," :: print_list pr true (m2 :: vs))%char.
    rewrite <- app_assoc. rewrite <- app_comm_cons.
    destruct (read_bound_print m o b
       ("," :: print_list pr true (m2 :: vs) ++ ")" :: rest)%list%char Hmb) as (m' & E & Hm').
    { right. eexists _, _. split; [reflexivity|auto]. }
    rewrite E.
    destruct olds as [|o2 olds]; [discriminate|].
    destruct (IH (o2 :: olds) ltac:(exact HL) ltac:(discriminate)) as (vs' & E2 & H2).
    cbn [bind]. unfold expect. cbn [get_char bind]. rewrite Ascii.eqb_refl. cbn [bind].
    rewrite E2. cbn [bind]. eexists; split; [reflexivity|]. constructor; auto.
Qed.

Context (prn : nat -> list ascii) (rdn : list ascii -> option (nat * list ascii)).
Hypothesis ION : num_io (fun n => n) prn rdn.

(** Reading a printed vector of bounds over any vector gives the same bounds.  The
    whole text is consumed, except for an empty vector, whose closing parenthesis is
    left in the stream. *)
Theorem bounds_print_read vs bs olds rest :
  Forall2 observes vs bs ->
  exists vs', read_bounds zero rd rdn olds (print_bounds pr prn vs ++ rest)%list =
    Ok (vs', match vs with [] => (")" :: rest)%char | _ => rest end)
    /\ Forall2 observes vs' (map (rounded rnd) bs).
Proof.
  intros HF. unfold read_bounds, print_bounds. simpl app.
  unfold expect at 1. simpl.
  replace ((prn (length vs) ++ "]"%char :: "("%char :: print_list pr true vs ++ [")"%char]) ++ rest)%list
    with (prn (length vs) ++ "]" :: "(" :: print_list pr true vs ++ ")" :: rest)%list%char.
  2:{ rewrite <- !app_assoc. simpl. rewrite <- app_assoc. reflexivity. }
  rewrite (io_read _ _ _ ION).
  2:{ right. eexists _, _. split; [reflexivity|auto]. }
  simpl.
  destruct vs as [|m vs].
  - inversion HF; subst. simpl. exists []. split; [reflexivity|constructor].
  - apply read_list_print; auto; [discriminate|]. apply vresize_length.
Qed.

Lemma read_list_count vs bs : Forall2 observes vs bs -> forall olds rest,
  vs <> [] -> olds <> [] -> length olds <> length vs ->
  read_list rd olds (print_list pr true vs ++ ")" :: rest)%list%char = Throw "PARSER_MULTI_BOUND".
Proof.
  induction 1 as [|m b vs bs Hmb HF IH]; intros olds rest Hv Ho HL; [congruence|].
  destruct olds as [|o olds]; [congruence|]. cbn [length] in HL.
  cbn [print_list read_list]. simpl app. destruct vs as [|m2 vs].
  - cbn [print_list]. rewrite app_nil_r.
    destruct (read_bound_print m o b (")" :: rest)%char Hmb) as (m' & E & _).
    { right. exists ")"%char, rest. auto. }
    rewrite E. cbn [bind]. destruct olds; [cbn in HL; lia|]. reflexivity.
  - change (print_list pr false (m2 :: vs)) with ("," :: print_list pr true (m2 :: vs))%char.
    rewrite <- app_assoc. rewrite <- app_comm_cons.
    destruct (read_bound_print m o b
       ("," :: print_list pr true (m2 :: vs) ++ ")" :: rest)%list%char Hmb) as (m' & E & _).
    { right. eexists _, _. split; [reflexivity|auto]. }
    rewrite E. cbn [bind]. destruct olds as [|o2 olds]; [reflexivity|].
    unfold expect. cbn [get_char bind]. rewrite Ascii.eqb_refl. cbn [bind].
    rewrite IH; [reflexivity|discriminate|discriminate|]. cbn [length] in *. lia.
Qed.

(** A text that announces another number of bounds than it holds raises. *)
Theorem bounds_count_raises n vs bs olds rest : Forall2 observes vs bs ->
  vs <> [] -> n <> 0 -> n <> length vs ->
  read_bounds zero rd rdn olds
    ("[" :: prn n ++ "]" :: "(" :: print_list pr true vs ++ ")" :: rest)%list%char
  = Throw "PARSER_MULTI_BOUND".
Proof.
  intros HF Hv Hn HL. unfold read_bounds, expect at 1. cbn [get_char bind]. rewrite Ascii.eqb_refl. cbn [bind].
  rewrite (io_read _ _ _ ION).
  2:{ right. eexists _, _. split; [reflexivity|auto]. }
  cbn [bind]. unfold expect. cbn [get_char bind]. rewrite Ascii.eqb_refl. cbn [bind].
  cbn [get_char bind]. rewrite Ascii.eqb_refl. cbn [bind].
  assert (L := vresize_length olds n (mb_single zero zero)).
  apply (read_list_count vs bs HF); auto; [|now rewrite L].
  destruct (vresize _ _ _); [cbn in L; congruence|discriminate].
Qed.
(** So does a text that does not start with a bracket. *)
Theorem bounds_start_raises c r olds : c <> "["%char ->
  read_bounds zero rd rdn olds (c :: r) = Throw "PARSER_MULTI_BOUND".
Proof.
  intros Hc. unfold read_bounds, expect at 1. cbn [get_char bind]. destruct (Ascii.eqb_spec c "["); [congruence|reflexivity].
Qed.

End ReadBack.

(** ** Which texts are accepted, and as what.  [rd] and [rdn] read a number. *)
Section Grammar.
Context {num : Type} (zero : num) (rd : list ascii -> option (num * list ascii)).
Context (rdn : list ascii -> option (nat * list ascii)).

(** [side_text s i r]: [s] is one side of a double bound, followed by [r]. *)
Inductive side_text : list ascii -> option num -> list ascii -> Prop :=
| side_absent r : side_text ("-" :: "-" :: r)%char None r
| side_number a b t x r : ~ (a = "-" /\ b = "-")%char -> rd (a :: b :: t) = Some (x, r) ->
    side_text (a :: b :: t) (Some x) r.
Inductive bound_text : list ascii -> bound num -> list ascii -> Prop :=
| text_single c t x r : c <> "("%char -> rd (c :: t) = Some (x, r) -> bound_text (c :: t) (Single x) r
| text_double s i s1 u r : side_text s i ("," :: s1)%char -> side_text s1 u (")" :: r)%char ->
    bound_text ("(" :: s)%char (Double i u) r.
Inductive list_text : list ascii -> list (bound num) -> list ascii -> Prop :=
| list_last s b r : bound_text s b (")" :: r)%char -> list_text s [b] r
| list_more s b s1 bs r : bound_text s b ("," :: s1)%char -> list_text s1 bs r -> list_text s (b :: bs) r.
Inductive bounds_text : list ascii -> list (bound num) -> list ascii -> Prop :=
| text_empty s r : rdn s = Some (0, "]" :: "(" :: r)%char -> bounds_text ("[" :: s)%char [] r
| text_bounds s s1 bs r : rdn s = Some (length bs, "]" :: "(" :: s1)%char -> list_text s1 bs r ->
    bounds_text ("[" :: s)%char bs r.

Lemma expect_ok c s r : expect c s = Ok r <-> s = c :: r.
Proof.
  unfold expect, get_char. destruct s as [|a s]; cbn [bind]; [split; discriminate|].
  destruct (Ascii.eqb_spec a c); split; try congruence. 
Qed.

Lemma read_side_ok bd m s m' r : read_side rd bd m s = Ok (m', r) <->
  exists i, side_text s i r /\ m' = match i with Some x => setDoubleBound m bd x | None => unsetDoubleBound m bd end.
Proof.
  unfold read_side, get_two. destruct s as [|a [|b t]]; cbn [bind].
  - split; [discriminate|]. intros (i & Hs & _). inversion Hs.
  - split; [discriminate|]. intros (i & Hs & _). inversion Hs.
  - destruct (Ascii.eqb_spec a "-") as [->|Na]; [destruct (Ascii.eqb_spec b "-") as [->|Nb]|]; cbn [andb].
    + split; [intros [= <- <-]; exists None; split; [constructor|reflexivity]|].
      intros (i & Hs & ->). inversion Hs; subst; [reflexivity|]. exfalso. auto.
    + unfold get_num. split.
      * destruct (rd _) as [[x r']|] eqn:E; cbn [bind]; [|discriminate]. intros [= <- <-].
        exists (Some x). split; [|reflexivity]. constructor; [tauto|exact E].
      * intros (i & Hs & ->). inversion Hs as [|? ? ? x ? Hn E]; subst; [congruence|]. now rewrite E.
    + unfold get_num. split.
      * destruct (rd _) as [[x r']|] eqn:E; cbn [bind]; [|discriminate]. intros [= <- <-].
        exists (Some x). split; [|reflexivity]. constructor; [tauto|exact E].
      * intros (i & Hs & ->). inversion Hs as [|? ? ? x ? Hn E]; subst; [congruence|]. now rewrite E.
Qed.

Lemma bind_inv {A B} (o : outcome A) (f : A -> outcome B) v : bind o f = Ok v <-> exists a, o = Ok a /\ f a = Ok v.
Proof. destruct o; cbn; split; try discriminate; eauto; intros (x & [=] & Hf); congruence. Qed.

(** What a bound becomes when both sides are read. *)
Lemma both_sides (m : MultiBound num) i u :
  let side bd m o := match o with Some x => setDoubleBound m bd x | None => unsetDoubleBound m bd end in
  observes (side BOUND_SUP (side BOUND_INF m i) u) (Double i u).
Proof. destruct m as [[] sg su inf [] []], i, u; cbn; repeat split. Qed.

(** A bound is accepted exactly when the text is one, and it is then the bound of the text, whatever
    it was before. *)
Theorem bound_read_grammar m s r :
  (forall m', read_bound rd m s = Ok (m', r) -> exists b, bound_text s b r /\ observes m' b) /\
  (forall b, bound_text s b r -> exists m', read_bound rd m s = Ok (m', r) /\ observes m' b).
Proof.
  unfold read_bound, get_char. split.
  - intros m'. destruct s as [|c t]; cbn [bind]; [discriminate|]. destruct (Ascii.eqb_spec c "(") as [->|Nc].
    + intros E. apply bind_inv in E as ([m1 r1] & E1 & E). apply bind_inv in E as (r2 & E2 & E).
      apply bind_inv in E as ([m2 r3] & E3 & E). apply bind_inv in E as (r4 & E4 & E). injection E as <- <-.
      apply read_side_ok in E1 as (i & T1 & ->). apply read_side_ok in E3 as (u & T2 & ->).
      apply expect_ok in E2 as ->. apply expect_ok in E4 as ->.
      exists (Double i u). split; [econstructor; eassumption|]. exact (both_sides m i u).
    + unfold get_num. destruct (rd _) as [[x r']|] eqn:E; cbn [bind]; [|discriminate]. intros [= <- <-].
      exists (Single x). split; [now constructor|]. cbn. repeat split.
  - intros b Hb. inversion Hb as [c t x r' Nc E|s' i s1 u r' T1 T2]; subst; cbn [bind].
    + destruct (Ascii.eqb_spec c "("); [congruence|]. unfold get_num. rewrite E. cbn [bind].
      eexists. split; [reflexivity|]. cbn. repeat split.
    + cbn [Ascii.eqb Bool.eqb]. eexists. split.
      * apply bind_inv. eexists (_, _). split; [apply read_side_ok; exists i; split; [exact T1|reflexivity]|].
        apply bind_inv. eexists. split; [apply expect_ok; reflexivity|].
        apply bind_inv. eexists (_, _). split; [apply read_side_ok; exists u; split; [exact T2|reflexivity]|].
        apply bind_inv. eexists. split; [apply expect_ok; reflexivity|]. reflexivity.
      * exact (both_sides m i u).
Qed.

Lemma read_list_grammar olds : olds <> [] -> forall s r,
  (forall vs, read_list rd olds s = Ok (vs, r) ->
     exists bs, list_text s bs r /\ length bs = length olds /\ Forall2 observes vs bs) /\
  (forall bs, list_text s bs r -> length bs = length olds ->
     exists vs, read_list rd olds s = Ok (vs, r) /\ Forall2 observes vs bs).
Proof.
  induction olds as [|m olds IH]; [congruence|]. intros _ s r. cbn [read_list]. split.
  - intros vs E. apply bind_inv in E as ([m' s1] & E1 & E). apply bind_inv in E as (s2 & E2 & E).
    apply bind_inv in E as ([rest s3] & E3 & E). injection E as <- <-.
    apply (proj1 (bound_read_grammar m s s1)) in E1 as (b & Tb & Ob). apply expect_ok in E2 as ->.
    destruct olds as [|m2 olds].
    + cbn in E3. injection E3 as <- <-. exists [b]. split; [now constructor|]. split; [reflexivity|]. constructor; [exact Ob|constructor].
    + apply (IH ltac:(discriminate)) in E3 as (bs & Tl & L & F). exists (b :: bs).
      split; [econstructor; eassumption|]. split; [cbn in *; congruence|]. constructor; assumption.
  - intros bs Tl L. inversion Tl as [s' b r' Tb|s' b s1 bs' r' Tb Tl']; subst.
    + destruct olds; [|discriminate]. destruct (proj2 (bound_read_grammar m _ _) _ Tb) as (m' & E & Ob).
      rewrite E. cbn [bind]. exists [m']. split; [|constructor; [exact Ob|constructor]].
      apply bind_inv. eexists. split; [apply expect_ok; reflexivity|]. reflexivity.
    + destruct olds as [|m2 olds]; [inversion Tl'; subst; discriminate|].
      destruct (proj2 (bound_read_grammar m _ _) _ Tb) as (m' & E & Ob).
      destruct (proj2 (IH ltac:(discriminate) s1 r) bs' Tl' ltac:(cbn in *; congruence)) as (vs & Ev & F).
      exists (m' :: vs). split; [|constructor; assumption]. rewrite E. cbn [bind].
      apply bind_inv. eexists. split; [apply expect_ok; reflexivity|]. rewrite Ev. reflexivity.
Qed.

(** The same for vectors; the closing parenthesis of an empty vector is not read. *)
Theorem bounds_read_grammar olds s r :
  (forall vs, read_bounds zero rd rdn olds s = Ok (vs, r) -> exists bs, bounds_text s bs r /\ Forall2 observes vs bs) /\
  (forall bs, bounds_text s bs r -> exists vs, read_bounds zero rd rdn olds s = Ok (vs, r) /\ Forall2 observes vs bs).
Proof.
  unfold read_bounds. split.
  - intros vs E. apply bind_inv in E as (s1 & E1 & E). apply expect_ok in E1 as ->.
    destruct (rdn s1) as [[n s2]|] eqn:En; cbn [bind] in E; [|discriminate].
    apply bind_inv in E as (s3 & E3 & E). apply expect_ok in E3 as ->.
    apply bind_inv in E as (s4 & E4 & E). apply expect_ok in E4 as ->.
    pose proof (vresize_length olds n (mb_single zero zero)) as L.
    destruct (vresize olds n (mb_single zero zero)) as [|m l] eqn:Ev.
    + cbn in E, L. injection E as <- <-. subst n. exists []. split; [now constructor|constructor].
    + apply read_list_grammar in E as (bs & Tl & L' & F); [|discriminate].
      exists bs. split; [|exact F]. eapply text_bounds; [|exact Tl]. rewrite En. congruence.
  - intros bs Hb. inversion Hb as [s1 r' En|s1 s2 bs' r' En Tl]; subst.
    + exists []. split; [|constructor]. apply bind_inv. eexists. split; [apply expect_ok; reflexivity|].
      rewrite En. cbn [bind]. apply bind_inv. eexists. split; [apply expect_ok; reflexivity|].
      apply bind_inv. eexists. split; [apply expect_ok; reflexivity|].
      pose proof (vresize_length olds 0 (mb_single zero zero)) as L. destruct (vresize _ _ _); [reflexivity|discriminate].
    + pose proof (vresize_length olds (length bs) (mb_single zero zero)) as L.
      assert (Hne : vresize olds (length bs) (mb_single zero zero) <> []).
      { intros N. rewrite N in L. cbn in L. inversion Tl; subst; discriminate. }
      destruct (proj2 (read_list_grammar _ Hne s2 r) bs Tl (eq_sym L)) as (vs & E & F).
      exists vs. split; [|exact F]. apply bind_inv. eexists. split; [apply expect_ok; reflexivity|].
      rewrite En. cbn [bind]. apply bind_inv. eexists. split; [apply expect_ok; reflexivity|].
      apply bind_inv. eexists. split; [apply expect_ok; reflexivity|]. exact E.
Qed.
End Grammar.

(** ** The hypotheses are met: decimal natural numbers. *)
Definition digit (d : nat) : ascii := ascii_of_nat (48 + d).
Definition is_digit (c : ascii) : bool := (48 <=? nat_of_ascii c) && (nat_of_ascii c <=? 57).
Fixpoint dec_aux (fuel n : nat) : list ascii :=
  match fuel with
  | 0 => [digit (n mod 10)]
  | S f => (if n <? 10 then [digit n] else dec_aux f (n / 10) ++ [digit (n mod 10)])%list
  end.
Definition print_dec (n : nat) : list ascii := dec_aux n n.
Fixpoint read_digits (acc : nat) (s : list ascii) : nat * list ascii :=
  match s with
  | c :: r => if is_digit c then read_digits (10 * acc + (nat_of_ascii c - 48)) r else (acc, s)
  | [] => (acc, [])
  end.
Definition read_dec (s : list ascii) : option (nat * list ascii) :=
  match s with
  | c :: _ => if is_digit c then Some (read_digits 0 s) else None
  | [] => None
  end.

Lemma digit_val d : d < 10 -> nat_of_ascii (digit d) = 48 + d.
Proof. intros H. unfold digit. apply nat_ascii_embedding. lia. Qed.
Lemma digit_is d : d < 10 -> is_digit (digit d) = true.
Proof.
  intros H. unfold is_digit. rewrite digit_val by exact H.
  apply andb_true_intro. split; apply Nat.leb_le; lia.
Qed.

Lemma dec_all f n : Forall (fun c => is_digit c = true) (dec_aux f n).
Proof.
  revert n; induction f as [|f IH]; intros n; cbn [dec_aux].
  - constructor; auto. apply digit_is. apply Nat.mod_upper_bound. lia.
  - destruct (Nat.ltb_spec n 10).
    + constructor; auto. apply digit_is; auto.
    + apply Forall_app. split; [apply IH|]. constructor; auto.
      apply digit_is. apply Nat.mod_upper_bound. lia.
Qed.

Lemma read_digits_app f n acc rest : n <= f -> 
  exists p, read_digits acc (dec_aux f n ++ rest)%list = read_digits (acc * 10 ^ p + n) rest.
Proof.
  revert n acc rest; induction f as [|f IH]; intros n acc rest Hn.
  - assert (n = 0) by lia. subst. exists 1. cbn [dec_aux app read_digits].
    rewrite digit_is by (cbn; lia). rewrite digit_val by (cbn; lia). f_equal. cbn. lia.
  - cbn [dec_aux]. destruct (Nat.ltb_spec n 10).
    + exists 1. cbn [app read_digits]. rewrite digit_is, digit_val by exact H.
      f_equal. rewrite Nat.pow_1_r. lia.
    + rewrite <- app_assoc.
      assert (n / 10 <= f).
      { apply Nat.lt_succ_r. apply Nat.lt_le_trans with n; [apply Nat.div_lt; lia|lia]. }
      destruct (IH (n / 10) acc ([digit (n mod 10)] ++ rest)%list H0) as (p & E).
      exists (S p). rewrite E. cbn [app read_digits].
      assert (n mod 10 < 10) by (apply Nat.mod_upper_bound; lia).
      rewrite digit_is, digit_val by assumption.
      f_equal. rewrite Nat.pow_succ_r'.
      pose proof (Nat.div_mod n 10 ltac:(lia)). lia.
Qed.

Lemma read_digits_stop acc rest : stops rest -> read_digits acc rest = (acc, rest).
Proof.
  intros [->|(c & r & -> & H)]; auto.
  destruct H as [->|[->| ->]]; reflexivity.
Qed.

Lemma dec_nonnil f n : dec_aux f n <> [].
Proof. destruct f; simpl; [discriminate|]. destruct (n <? 10); [discriminate|]. 
  intros H. apply app_eq_nil in H as [_ H]. discriminate. Qed.

Theorem num_io_decimal : num_io (fun n => n) print_dec read_dec.
Proof.
  constructor.
  - intros x rest Hs. unfold print_dec, read_dec.
    pose proof (dec_all x x) as Ha. pose proof (dec_nonnil x x) as Hn.
    destruct (dec_aux x x) as [|c p] eqn:E; [congruence|]. simpl app.
    inversion Ha; subst. rewrite H1. f_equal.
    change (c :: p ++ rest)%list with ((c :: p) ++ rest)%list. rewrite <- E.
    destruct (read_digits_app x x 0 rest (le_n x)) as (q & ->).
    rewrite read_digits_stop by exact Hs. f_equal.
  - intros x. apply dec_nonnil.
  - intros x r E. pose proof (dec_all x x) as Ha. unfold print_dec in E. rewrite E in Ha.
    inversion Ha; subst. discriminate.
  - intros x r rest E. pose proof (dec_all x x) as Ha. pose proof (dec_nonnil x x) as Hn.
    unfold print_dec in E. destruct (dec_aux x x); [congruence|].
    inversion Ha; subst. injection E as -> _. discriminate.
Qed.

(** "[3](12,(4,--),(--,--))" reads back. *)
Example bounds_example :
  let v := [mb_single 0 12; mb_half 0 4 BOUND_INF; unsetDoubleBound (mb_single 0 0) BOUND_SUP] in
  string_of_list_ascii (print_bounds print_dec print_dec v) = "[3](12,(4,--),(--,--))"%string /\
  exists v', read_bounds 0 read_dec read_dec [] (print_bounds print_dec print_dec v) = Ok (v', []) /\
    Forall2 observes v' [Single 12; Double (Some 4) None; Double None None].
Proof.
  split; [reflexivity|].
  eexists; split; [vm_compute; reflexivity|].
  repeat constructor.
Qed.

Example bounds_count_example :
  read_bounds 0 read_dec read_dec [] (list_ascii_of_string "[3](12,(4,--))") = Throw "PARSER_MULTI_BOUND" /\
  read_bounds 0 read_dec read_dec [] (list_ascii_of_string "[1](12,(4,--))") = Throw "PARSER_MULTI_BOUND".
Proof. split; reflexivity. Qed.

Example bounds_text_case :
  bounds_text read_dec read_dec (chars "[2](17,(--,40))!") [Single 17; Double None (Some 40)] ["!"%char].
Proof.
  eapply text_bounds; [reflexivity|]. eapply list_more; [now constructor|]. apply list_last.
  eapply text_double; [constructor|]. constructor; [intros [? ?]; discriminate|reflexivity].
Qed.

(** Finding: the printed empty vector is not consumed entirely. *)
Theorem bounds_empty_not_consumed_refuted :
  string_of_list_ascii (print_bounds print_dec print_dec ([] : list (MultiBound nat))) = "[0]()"%string /\
  read_bounds 0 read_dec read_dec [] (print_bounds print_dec print_dec []) = Ok ([], [")"%char]).
Proof. split; reflexivity. Qed.

Print Assumptions bound_history.
Print Assumptions bound_constructors.
Print Assumptions bound_is_single_or_double.
Print Assumptions bound_print_read.
Print Assumptions bounds_print_read.
Print Assumptions bounds_empty_not_consumed_refuted.
Print Assumptions bounds_count_raises.
Print Assumptions bounds_start_raises.
Print Assumptions bound_read_grammar.
Print Assumptions bounds_read_grammar.
