(** The text of a trajectory is read back, with the limits of its regular expressions. *)
From Coq Require Import String Ascii List Arith Lia ZArith Bool Reals.
From Verif Require Import Base Traj_Model TrajText_Model.
Import ListNotations.
Local Open Scope list_scope.
Local Open Scope nat_scope.

(** ** The engine *)
Definition kont := text -> caps -> option (caps * text).
Definition fin : kont := fun s c => Some (c, s).

(** A greedy repetition of one class takes the whole run of characters of the class when what follows
    accepts. *)
Lemma star_run p w rest c (k : kont) x :
  forallb p w = true -> (match rest with [] => true | y :: _ => negb (p y) end = true) ->
  k rest c = Some x -> rmatch (Star (Chr p)) (w ++ rest) c k = Some x.
Proof.
  intros Hw Hr Hk. cbn [rmatch].
  assert (G : forall n, length w <= n ->
    (fix loop n s c := match n with 0 => k s c | S n =>
       match match s with [] => None | x :: s' => if p x then (if length s' <? length s then loop n s' c else None) else None end with
       | Some x => Some x | None => k s c end end) n (w ++ rest) c = Some x).
  { induction w as [|y w IH]; intros n Hn.
    - cbn [app]. destruct n; [exact Hk|]. destruct rest as [|y rest]; [exact Hk|].
      apply negb_true_iff in Hr. rewrite Hr. exact Hk.
    - cbn in Hw. apply andb_true_iff in Hw as [Hy Hw]. destruct n as [|n]; [cbn in Hn; lia|].
      cbn [app]. rewrite Hy. replace (length (w ++ rest) <? length (y :: w ++ rest)) with true
        by (symmetry; apply Nat.ltb_lt; cbn; lia).
      rewrite IH; [reflexivity|exact Hw|cbn in Hn; lia]. }
  apply G. rewrite app_length. lia.
Qed.
Lemma plus_run p w rest c (k : kont) x :
  w <> [] -> forallb p w = true -> (match rest with [] => true | y :: _ => negb (p y) end = true) ->
  k rest c = Some x -> rmatch (Plus (Chr p)) (w ++ rest) c k = Some x.
Proof.
  intros Hn Hw Hr Hk. destruct w as [|y w]; [congruence|]. cbn in Hw. apply andb_true_iff in Hw as [Hy Hw].
  unfold Plus. change (rmatch (Cat (Chr p) (Star (Chr p))) ((y :: w) ++ rest) c k)
    with (if p y then rmatch (Star (Chr p)) (w ++ rest) c k else None).
  rewrite Hy. apply star_run; assumption.
Qed.
Lemma lit_ok x s c (k : kont) : rmatch (lit x) (x :: s) c k = k s c.
Proof. cbn. unfold is_char. now rewrite Ascii.eqb_refl. Qed.
Lemma cat_eq a b s c (k : kont) : rmatch (Cat a b) s c k = rmatch a s c (fun s' c' => rmatch b s' c' k).
Proof. reflexivity. Qed.
Lemma grp_eq i a s c (k : kont) :
  rmatch (Grp i a) s c k = rmatch a s c (fun s' c' => k s' (set_cap i (firstn (length s - length s') s) c')).
Proof. reflexivity. Qed.
Lemma taken (w rest : text) : firstn (length (w ++ rest) - length rest) (w ++ rest) = w.
Proof. rewrite app_length, Nat.add_sub, firstn_app, Nat.sub_diag, firstn_all. apply app_nil_r. Qed.
Lemma rsearch_here r s x : rmatch r s no_caps fin = Some x -> rsearch r s = Some x.
Proof. intros E. destruct s; cbn [rsearch]; unfold fin in E; rewrite E; reflexivity. Qed.

(** ** Tokens *)
(** The characters of a word are all among those of [s]. *)
Definition among (s : string) (w : text) : Prop := forallb (fun x => existsb (Ascii.eqb x) (txt s)) w = true.
Local Notation digits := "0123456789"%string.
Local Notation letters := "abcdefghijklmnopqrstuvwxyzABCDEFGHIJKLMNOPQRSTUVWXYZ0123456789_"%string.
(** A frame may also hold the characters that are between Z and a in the ASCII table. *)
Local Notation frame_letters := "abcdefghijklmnopqrstuvwxyzABCDEFGHIJKLMNOPQRSTUVWXYZ0123456789_[\]^`"%string.
(** A decimal number: signs and digits, a point, digits. *)
Definition decimal (w : text) : Prop := exists a b, w = a ++ "."%char :: b /\ a <> [] /\
  among "-0123456789" a /\ among digits b.
Definition jname (w : text) : Prop := w <> [] /\ among letters w.

Lemma forallb_same {A} (f g : A -> bool) l : (forall x, f x = g x) -> forallb f l = forallb g l.
Proof. intros E. induction l as [|x l IH]; [reflexivity|]. cbn. now rewrite E, IH. Qed.
Lemma digits_class w : among digits w <-> forallb is_digit w = true.
Proof. unfold among. erewrite forallb_same; [reflexivity|]. intros [[] [] [] [] [] [] [] []]; reflexivity. Qed.
Lemma float_class w : among "-0123456789" w <-> forallb float_char w = true.
Proof. unfold among. erewrite forallb_same; [reflexivity|]. intros [[] [] [] [] [] [] [] []]; reflexivity. Qed.
Lemma name_class w : among letters w <-> forallb name_char w = true.
Proof. unfold among. erewrite forallb_same; [reflexivity|]. intros [[] [] [] [] [] [] [] []]; reflexivity. Qed.
Lemma frame_class w : among frame_letters w <-> forallb frame_char w = true.
Proof. unfold among. erewrite forallb_same; [reflexivity|]. intros [[] [] [] [] [] [] [] []]; reflexivity. Qed.

Lemma dot_not_float : float_char "." = false. Proof. reflexivity. Qed.
Lemma sep_cases y : sep_char y = true -> y = ","%char \/ y = ")"%char.
Proof. unfold sep_char, is_char. intros E. apply orb_true_iff in E as [E|E]; apply Ascii.eqb_eq in E; auto. Qed.
Lemma sep_classes y : sep_char y = true -> is_digit y = false /\ float_char y = false /\ name_char y = false.
Proof. intros E. apply sep_cases in E as [-> | ->]; repeat split; reflexivity. Qed.
Lemma dec_nonempty w : decimal w -> w <> [].
Proof. intros (a & b & -> & _). destruct a; discriminate. Qed.

Lemma float_run w y rest c (k : kont) x : decimal w -> is_digit y = false ->
  k (y :: rest) c = Some x -> rmatch float_re (w ++ y :: rest) c k = Some x.
Proof.
  intros (a & b & -> & Ha & Hfa & Hb) Hy Hk. apply float_class in Hfa. apply digits_class in Hb. unfold float_re. rewrite cat_eq, <- app_assoc.
  apply plus_run; [exact Ha|exact Hfa|reflexivity|]. cbn [app]. rewrite cat_eq, lit_ok.
  apply star_run; [exact Hb| |exact Hk]. now rewrite Hy.
Qed.

(** A number in front: it is taken, without a separator. *)
Lemma pv_number w y rest : decimal w -> sep_char y = true ->
  exists c, rsearch list_of_pv_re (w ++ y :: rest) = Some (c, y :: rest) /\ c 1 = w /\ c 2 = [].
Proof.
  intros Hw Hy. eexists. split; [|split].
  - apply rsearch_here. unfold list_of_pv_re.
    change (rmatch (Alt (Grp 1 float_re) (Cat Eps (Grp 2 (Chr sep_char)))) (w ++ y :: rest) no_caps fin)
      with (match rmatch (Grp 1 float_re) (w ++ y :: rest) no_caps fin with Some x => Some x | None =>
              rmatch (Cat Eps (Grp 2 (Chr sep_char))) (w ++ y :: rest) no_caps fin end).
    rewrite grp_eq. erewrite float_run; [reflexivity|exact Hw|now apply sep_classes|].
    cbv beta. rewrite taken. reflexivity.
  - reflexivity.
  - reflexivity.
Qed.
(** A separator in front. *)
Lemma pv_sep y rest : sep_char y = true ->
  exists c, rsearch list_of_pv_re (y :: rest) = Some (c, rest) /\ c 1 = [] /\ c 2 = [y].
Proof.
  intros Hy. eexists. split; [|split].
  - apply rsearch_here. unfold list_of_pv_re.
    change (rmatch (Alt (Grp 1 float_re) (Cat Eps (Grp 2 (Chr sep_char)))) (y :: rest) no_caps fin)
      with (match rmatch (Grp 1 float_re) (y :: rest) no_caps fin with Some x => Some x | None =>
              rmatch (Cat Eps (Grp 2 (Chr sep_char))) (y :: rest) no_caps fin end).
    assert (E : rmatch (Grp 1 float_re) (y :: rest) no_caps fin = None).
    { rewrite grp_eq. unfold float_re, Plus. rewrite !cat_eq. cbn [rmatch].
      destruct (sep_classes y Hy) as (_ & -> & _). reflexivity. }
    rewrite E, cat_eq. cbn [rmatch]. rewrite Hy. unfold fin.
    replace (firstn (length (y :: rest) - length rest) (y :: rest)) with [y]; [reflexivity|].
    symmetry. exact (taken [y] rest).
  - reflexivity.
  - reflexivity.
Qed.
Lemma jn_name w y rest : jname w -> sep_char y = true ->
  exists c, rsearch list_of_jn_re (w ++ y :: rest) = Some (c, rest) /\ c 1 = w /\ c 2 = [y].
Proof.
  intros [Hn Hw] Hy. apply name_class in Hw. eexists. split; [|split].
  - apply rsearch_here. unfold list_of_jn_re. rewrite cat_eq, grp_eq.
    apply plus_run; [exact Hn|exact Hw| |].
    + destruct (sep_classes y Hy) as (_ & _ & ->). reflexivity.
    + cbv beta. rewrite taken, grp_eq. cbn [rmatch]. rewrite Hy. unfold fin.
      replace (firstn (length (y :: rest) - length rest) (y :: rest)) with [y]; [reflexivity|].
      symmetry. exact (taken [y] rest).
  - reflexivity.
  - reflexivity.
Qed.
Lemma lit_search x rest : exists c, rsearch (lit x) (x :: rest) = Some (c, rest).
Proof. eexists. apply rsearch_here. rewrite lit_ok. reflexivity. Qed.
Lemma lit2_search x y rest : exists c, rsearch (Cat (lit x) (lit y)) (x :: y :: rest) = Some (c, rest).
Proof. eexists. apply rsearch_here. rewrite cat_eq, lit_ok, lit_ok. reflexivity. Qed.
Lemma lit_absent x s : ~ In x s -> rsearch (lit x) s = None.
Proof.
  induction s as [|y s IH]; intros H; [reflexivity|]. cbn [rsearch].
  assert (E : rmatch (lit x) (y :: s) no_caps (fun s' c' => Some (c', s')) = None).
  { cbn. unfold is_char. destruct (Ascii.eqb_spec x y) as [->|]; [|reflexivity]. exfalso. apply H. now left. }
  rewrite E. apply IH. intros Hi. apply H. now right.
Qed.

(** ** The text of a trajectory *)
(** Words separated by commas. *)
Fixpoint commas (l : list text) : text :=
  match l with [] => [] | [w] => w | w :: l => w ++ ","%char :: commas l end.
Definition parens (w : text) : text := "("%char :: w ++ [")"%char].
Definition numbers (l : list text) : text := parens (commas l).
(** A document: header, names of the joints, points (positions, velocities, accelerations, efforts). *)
Record doc := mkDoc { d_seq : text; d_secs : text; d_nsecs : text; d_frame : text; d_names : list text;
  d_points : list (list text * list text * list text * list text) }.
Definition point_text (p : list text * list text * list text * list text) : text :=
  let '(a, b, c, d) := p in parens (commas [numbers a; numbers b; numbers c; numbers d]).
Definition doc_text (d : doc) : text :=
  commas [parens (commas [d_seq d; numbers [d_secs d; d_nsecs d]; d_frame d]); numbers (d_names d);
          parens (commas (map point_text (d_points d)))].
Definition wf_doc (d : doc) : Prop :=
  d_seq d <> [] /\ among digits (d_seq d) /\ decimal (d_secs d) /\ decimal (d_nsecs d) /\
  among frame_letters (d_frame d) /\ d_names d <> [] /\ Forall jname (d_names d) /\
  Forall (fun '(a, b, c, e) => Forall decimal a /\ Forall decimal b /\ Forall decimal c /\ Forall decimal e) (d_points d).

Section Text.
Variable num : Type.
Variable value : text -> num.
Notation parse_seq := (parse_seq num value).
Notation pseq := (pseq num value).
Notation parse_point := (parse_point num value).
Notation points_loop := (points_loop num value).
Notation parse_points := (parse_points num value).
Notation deserialize := (deserialize num value).

(** The characters [commas l ++ y :: rest] for a separator. *)
Lemma seq_read l rest acc n : Forall decimal l -> length (commas l) < n ->
  parse_seq n (commas l ++ ")"%char :: rest) acc = Ended (acc ++ map value l, rest).
Proof.
  revert acc n. induction l as [|w l IH]; intros acc n Hl Hn.
  - destruct n as [|n]; [lia|]. cbn [commas app map]. rewrite app_nil_r.
    cbn [TrajText_Model.parse_seq]. unfold search_exp. destruct (pv_sep ")" rest eq_refl) as (c & -> & -> & ->). reflexivity.
  - apply Forall_cons_iff in Hl as [Hw Hl].
    assert (W : forall y more m acc, sep_char y = true -> parse_seq (S m) (w ++ y :: more) acc = parse_seq m (y :: more) (acc ++ [value w])).
    { intros y more m a Hy. cbn [TrajText_Model.parse_seq]. unfold search_exp.
      destruct (pv_number w y more Hw Hy) as (c & -> & -> & ->). destruct w; [exfalso; now apply (dec_nonempty [])|]. reflexivity. }
    destruct l as [|w' l].
    + cbn [commas map] in *. destruct n as [|[|n]]; try lia.
      { pose proof (dec_nonempty w Hw). destruct w; [congruence|cbn in Hn; lia]. }
      rewrite W by reflexivity. cbn [TrajText_Model.parse_seq]. unfold search_exp.
      destruct (pv_sep ")" rest eq_refl) as (c & -> & -> & ->). reflexivity.
    + change (commas (w :: w' :: l)) with (w ++ ","%char :: commas (w' :: l)) in *.
      rewrite app_length in Hn. cbn [length] in Hn. destruct n as [|[|n]]; try lia.
      rewrite <- app_assoc. cbn [app]. rewrite W by reflexivity. 
      cbn [TrajText_Model.parse_seq]. unfold search_exp at 1.
      destruct (pv_sep "," (commas (w' :: l) ++ ")"%char :: rest) eq_refl) as (c & -> & -> & ->).
      destruct (list_eq_dec ascii_dec [","%char] (txt ")")) as [E|_]; [discriminate E|].
      assert (1 <= length w) by (pose proof (dec_nonempty w Hw); destruct w; [congruence|cbn; lia]).
      rewrite IH by (try assumption; lia). rewrite <- app_assoc. reflexivity.
Qed.
Lemma pseq_read l rest : Forall decimal l -> pseq (commas l ++ ")"%char :: rest) = Ended (map value l, rest).
Proof. intros Hl. unfold TrajText_Model.pseq. rewrite seq_read; [reflexivity|exact Hl|]. rewrite app_length. cbn. lia. Qed.

Lemma names_read l rest acc n : l <> [] -> Forall jname l -> length (commas l) < n ->
  parse_joint_names n (commas l ++ ")"%char :: rest) acc = Ended (acc ++ l, rest).
Proof.
  intros H0. revert acc n. induction l as [|w l IH]; intros acc n Hl Hn; [congruence|]. clear H0.
  apply Forall_cons_iff in Hl as [Hw Hl]. destruct n as [|n]; [lia|]. destruct l as [|w' l].
  - cbn [commas] in *. cbn [parse_joint_names]. unfold search_exp.
    destruct (jn_name w ")" rest Hw eq_refl) as (c & -> & -> & ->). reflexivity.
  - change (commas (w :: w' :: l)) with (w ++ ","%char :: commas (w' :: l)) in *.
    rewrite app_length in Hn. cbn [length] in Hn. rewrite <- app_assoc. cbn [app parse_joint_names]. unfold search_exp.
    destruct (jn_name w "," (commas (w' :: l) ++ ")"%char :: rest) Hw eq_refl) as (c & -> & -> & ->).
    destruct (list_eq_dec ascii_dec [","%char] (txt ")")) as [E|_]; [discriminate E|].
    rewrite IH by (try assumption; try discriminate; lia). rewrite <- app_assoc. reflexivity.
Qed.

Definition point_of (p : list text * list text * list text * list text) : jpoint num :=
  let '(a, b, c, d) := p in mkJp (map value a) (map value b) (map value c) (map value d).

Lemma numbers_app l r : numbers l ++ r = "("%char :: commas l ++ ")"%char :: r.
Proof. unfold numbers, parens. cbn. now rewrite <- app_assoc. Qed.

Lemma point_read a b c d rest : Forall decimal a -> Forall decimal b -> Forall decimal c -> Forall decimal d ->
  parse_point (commas [numbers a; numbers b; numbers c; numbers d] ++ rest) = Ended (Some (point_of (a, b, c, d), rest)).
Proof.
  intros Ha Hb Hc Hd. cbn [commas]. rewrite <- app_assoc. rewrite numbers_app. unfold TrajText_Model.parse_point, search_exp.
  destruct (lit_search "(" (commas a ++ ")"%char :: (","%char :: numbers b ++ ","%char :: numbers c ++ ","%char :: numbers d) ++ rest)) as (c1 & E1).
  unfold bg_pt_re. rewrite E1, pseq_read by exact Ha. cbn [ebind app].
  rewrite <- app_assoc, numbers_app. destruct (lit2_search "," "(" (commas b ++ ")"%char :: (","%char :: numbers c ++ ","%char :: numbers d) ++ rest)) as (c2 & E2).
  unfold comma_pt_re. rewrite E2, pseq_read by exact Hb. cbn [ebind app].
  rewrite <- app_assoc, numbers_app. destruct (lit2_search "," "(" (commas c ++ ")"%char :: (","%char :: numbers d) ++ rest)) as (c3 & E3).
  rewrite E3, pseq_read by exact Hc. cbn [ebind app].
  rewrite numbers_app. destruct (lit2_search "," "(" (commas d ++ ")"%char :: rest)) as (c4 & E4).
  rewrite E4, pseq_read by exact Hd. reflexivity.
Qed.

Lemma points_read l rest acc n : ~ In "("%char rest ->
  Forall (fun '(a, b, c, e) => Forall decimal a /\ Forall decimal b /\ Forall decimal c /\ Forall decimal e) l ->
  length l < n ->
  points_loop n (commas (map point_text l) ++ ")"%char :: rest) acc = Ended (acc ++ map point_of l).
Proof.
  intros Hr. revert acc n. induction l as [|p l IH]; intros acc n Hl Hn; (destruct n as [|n]; [cbn in Hn; lia|]).
  - cbn [map commas app TrajText_Model.points_loop]. unfold search_exp, bg_pt_re. rewrite lit_absent.
    + now rewrite app_nil_r.
    + intros [E|E]; [discriminate E|contradiction].
  - apply Forall_cons_iff in Hl as [Hp Hl]. destruct p as [[[a b] c] e]. destruct Hp as (Ha & Hb & Hc & He).
    assert (One : forall y more, sep_char y = true ->
      points_loop (S n) (point_text (a, b, c, e) ++ y :: more) acc = points_loop n more (acc ++ [point_of (a, b, c, e)])).
    { intros y more Hy. unfold point_text, parens.
      change (("("%char :: commas [numbers a; numbers b; numbers c; numbers e] ++ [")"%char]) ++ y :: more)
        with ("("%char :: ((commas [numbers a; numbers b; numbers c; numbers e] ++ [")"%char]) ++ y :: more)).
      rewrite <- app_assoc. cbn [app]. set (W := commas [numbers a; numbers b; numbers c; numbers e]).
      cbn [TrajText_Model.points_loop]. unfold search_exp, bg_pt_re.
      destruct (lit_search "(" (W ++ ")"%char :: y :: more)) as (c1 & E1). rewrite E1. unfold W.
      rewrite point_read by assumption. cbn [ebind].
      unfold end_pt_re. destruct (lit_search ")" (y :: more)) as (c2 & E2). rewrite E2.
      destruct (pv_sep y more Hy) as (c3 & -> & -> & _). reflexivity. }
    destruct l as [|p' l].
    + cbn [map commas]. rewrite One by reflexivity. destruct n as [|n]; [cbn in Hn; lia|].
      cbn [TrajText_Model.points_loop]. unfold search_exp, bg_pt_re. rewrite lit_absent by exact Hr. reflexivity.
    + cbn [map]. change (commas (point_text (a, b, c, e) :: point_text p' :: map point_text l))
        with (point_text (a, b, c, e) ++ ","%char :: commas (map point_text (p' :: l))).
      rewrite <- app_assoc. cbn [app]. rewrite One by reflexivity.
      rewrite IH by (try assumption; cbn in Hn |- *; lia). rewrite <- app_assoc. reflexivity.
Qed.

Lemma header_read sq sc ns fr rest : sq <> [] -> among digits sq -> decimal sc -> decimal ns ->
  among frame_letters fr ->
  exists c, rsearch header_re (parens (commas [sq; numbers [sc; ns]; fr]) ++ ","%char :: "("%char :: rest) = Some (c, rest) /\
    c 1 = sq /\ c 2 = sc /\ c 3 = ns /\ c 4 = fr.
Proof.
  intros H1 H2 H3 H4 H5. apply digits_class in H2. apply frame_class in H5. eexists. split; [|repeat split].
  - apply rsearch_here. unfold header_re, parens. cbn [commas app].
    rewrite cat_eq, lit_ok, cat_eq, grp_eq. rewrite <- !app_assoc. cbn [app].
    apply plus_run; [exact H1|exact H2|reflexivity|]. cbv beta. rewrite taken.
    rewrite cat_eq, lit_ok, cat_eq. rewrite <- app_assoc, numbers_app. rewrite lit_ok, cat_eq, grp_eq.
    cbn [commas]. rewrite <- app_assoc. cbn [app].
    apply float_run; [exact H3|reflexivity|]. cbv beta. rewrite taken.
    rewrite cat_eq, lit_ok, cat_eq, grp_eq. apply float_run; [exact H4|reflexivity|]. cbv beta. rewrite taken.
    rewrite cat_eq, lit_ok, cat_eq. cbn [app]. rewrite lit_ok, cat_eq, grp_eq.
    apply star_run; [exact H5|reflexivity|]. cbv beta. rewrite taken.
    rewrite cat_eq, lit_ok, cat_eq, lit_ok, lit_ok. reflexivity.
  - reflexivity.
  - reflexivity.
  - reflexivity.
  - reflexivity.
Qed.

(** The number written with the digits [w]. *)
Definition number_of (w : text) : Z := fold_left (fun a x => (10 * a + (Z.of_nat (nat_of_ascii x) - 48))%Z) w 0%Z.
Lemma digits_number w a : forallb is_digit w = true ->
  read_digits a (map as_digit w) = (fold_left (fun a x => (10 * a + (Z.of_nat (nat_of_ascii x) - 48))%Z) w a, [], true).
Proof.
  revert a. induction w as [|x w IH]; intros a H; [reflexivity|]. cbn in H. apply andb_true_iff in H as [Hx Hw].
  cbn [map read_digits fold_left]. unfold as_digit at 1. rewrite Hx. rewrite IH by exact Hw.
  unfold is_digit, in_range in Hx. apply andb_true_iff in Hx as [Hx _]. apply Nat.leb_le in Hx.
  change (nat_of_ascii "0") with 48 in *. do 3 f_equal. lia.
Qed.
Lemma head_number sq sc ns h : sq <> [] -> among digits sq ->
  parse_header (map as_digit sq) sc ns h = (number_of sq, snd h).
Proof.
  intros Hn Hd. apply digits_class in Hd. unfold parse_header, is_get at 1. cbn [is_str is_eof is_fail orb is_buf].
  rewrite digits_number by exact Hd. destruct sq as [|x sq]; [congruence|]. cbn [map].
  cbn in Hd. apply andb_true_iff in Hd as [Hx _]. unfold as_digit at 1. rewrite Hx.
  unfold is_get. cbn. destruct h as [a [b c]]. reflexivity.
Qed.

(** The text of a trajectory, read into a trajectory: the sequence number and the frame are those of the
    text, the names and the points are added after the ones already there, in order, each point with its
    four lists of numbers; anything without an opening parenthesis may follow.
    Missing: the time stamp, which is not read (trajectory_stamp_refuted); texts that are not of this
    form are not refused (trajectory_integer_refuted, trajectory_no_joint_refuted). *)
Theorem trajectory_text_partial (tr : ttraj num) (d : doc) (rest : text) : wf_doc d -> ~ In "("%char rest ->
  deserialize tr (doc_text d ++ rest) =
  Ended (mkTt (number_of (d_seq d)) (tt_stamp tr) (d_frame d) (tt_names tr ++ d_names d)
              (tt_points tr ++ map point_of (d_points d))).
Proof.
  intros (H1 & H2 & H3 & H4 & H5 & H6 & H7 & H8) Hr. unfold TrajText_Model.deserialize, parse_head, search_exp.
  set (PT := commas (map point_text (d_points d))).
  assert (E : doc_text d ++ rest = parens (commas [d_seq d; numbers [d_secs d; d_nsecs d]; d_frame d]) ++
    ","%char :: "("%char :: commas (d_names d) ++ ")"%char :: ","%char :: "("%char :: PT ++ ")"%char :: rest).
  { unfold doc_text. set (HD := commas [d_seq d; numbers [d_secs d; d_nsecs d]; d_frame d]).
    cbn [commas]. fold PT. unfold numbers, parens.
    repeat (progress (rewrite <- ?app_assoc; cbn [app])). reflexivity. }
  destruct (header_read (d_seq d) (d_secs d) (d_nsecs d) (d_frame d)
    (commas (d_names d) ++ ")"%char :: ","%char :: "("%char :: PT ++ ")"%char :: rest) H1 H2 H3 H4 H5)
    as (c & Eh & E1 & _ & _ & E4).
  assert (E' : rsearch header_re (doc_text d ++ rest) = Some (c, commas (d_names d) ++ ")"%char :: ","%char :: "("%char :: PT ++ ")"%char :: rest))
    by (rewrite E; exact Eh).
  rewrite E', E1, E4. clear E E' Eh.
  rewrite head_number by assumption. cbn [tt_names tt_points snd].
  rewrite names_read; [|exact H6|exact H7|rewrite app_length; cbn; lia]. cbn [ebind].
  unfold TrajText_Model.parse_points, search_exp, bg_liste_of_pts_re.
  destruct (lit2_search "," "(" (PT ++ ")"%char :: rest)) as (c2 & ->). unfold PT.
  rewrite points_read; [reflexivity|exact Hr|exact H8|]. rewrite app_length.
  assert (L : forall l, length l <= length (commas (map point_text l))).
  { induction l as [|p l IH]; [cbn; lia|]. destruct l as [|p' l].
    - cbn. destruct p as [[[a b] e] f]. cbn. lia.
    - change (commas (map point_text (p :: p' :: l))) with (point_text p ++ ","%char :: commas (map point_text (p' :: l))).
      rewrite app_length. cbn [length] in IH |- *. lia. }
  specialize (L (d_points d)). cbn. lia.
Qed.

(** ** Every text *)
Fixpoint minlen (r : re) : nat :=
  match r with Eps => 0 | Chr _ => 1 | Cat a b => minlen a + minlen b | Alt a b => Nat.min (minlen a) (minlen b)
  | Star _ => 0 | Grp _ a => minlen a end.
Lemma rmatch_takes r : forall s c (k : kont) x, rmatch r s c k = Some x ->
  exists s' c', k s' c' = Some x /\ length s' + minlen r <= length s.
Proof.
  induction r as [|p|a IHa b IHb|a IHa b IHb|a IHa|i a IHa]; intros s c k x E.
  - exists s, c. cbn in *. split; [exact E|lia].
  - cbn in E. destruct s as [|y s]; [discriminate|]. destruct (p y); [|discriminate]. exists s, c. cbn. split; [exact E|lia].
  - rewrite cat_eq in E. apply IHa in E as (s1 & c1 & E & L1). apply IHb in E as (s2 & c2 & E & L2).
    exists s2, c2. cbn. split; [exact E|lia].
  - cbn in E. destruct (rmatch a s c k) as [y|] eqn:Ea.
    + injection E as <-. apply IHa in Ea as (s1 & c1 & E & L1). exists s1, c1. cbn. split; [exact E|lia].
    + apply IHb in E as (s1 & c1 & E & L1). exists s1, c1. cbn. split; [exact E|lia].
  - cbn [rmatch] in E. cbn [minlen].
    assert (G : forall n s c, (fix loop n s c :=
         match n with
         | 0 => k s c
         | S n =>
             match rmatch a s c (fun s' c' => if length s' <? length s then loop n s' c' else None) with
             | Some x => Some x
             | None => k s c
             end
         end) n s c = Some x -> exists s' c', k s' c' = Some x /\ length s' + 0 <= length s).
    { clear s c E. induction n as [|n IH]; intros s c E; [exists s, c; split; [exact E|lia]|].
      match type of E with match ?m with _ => _ end = _ => destruct m as [y|] eqn:Em end.
      - injection E as ->. apply IHa in Em as (s1 & c1 & Em & L1). destruct (Nat.ltb_spec (length s1) (length s)) as [L|L]; [|discriminate].
        apply IH in Em as (s2 & c2 & Em & L2). exists s2, c2. split; [exact Em|lia].
      - exists s, c. split; [exact E|lia]. }
    exact (G _ _ _ E).
  - rewrite grp_eq in E. apply IHa in E as (s1 & c1 & E & L1). eexists s1, _. cbn. split; [exact E|lia].
Qed.
Lemma rsearch_takes r s c s' : rsearch r s = Some (c, s') -> length s' + minlen r <= length s.
Proof.
  induction s as [|y s IH]; intros E; cbn [rsearch] in E.
  - destruct (rmatch r [] no_caps _) as [x|] eqn:Em; [|discriminate]. injection E as ->.
    apply rmatch_takes in Em as (s1 & c1 & E1 & L1). injection E1 as <- <-. exact L1.
  - destruct (rmatch r (y :: s) no_caps _) as [x|] eqn:Em.
    + injection E as ->. apply rmatch_takes in Em as (s1 & c1 & E1 & L1). injection E1 as <- <-. exact L1.
    + specialize (IH E). cbn. lia.
Qed.
Lemma rsearch_somewhere r s c s' : rsearch r s = Some (c, s') -> exists u, rmatch r u no_caps fin = Some (c, s').
Proof.
  induction s as [|y s IH]; intros E; cbn [rsearch] in E.
  - destruct (rmatch r [] no_caps _) as [x|] eqn:Em; [|discriminate]. injection E as ->. exists []. exact Em.
  - destruct (rmatch r (y :: s) no_caps _) as [x|] eqn:Em; [|auto]. injection E as ->. exists (y :: s). exact Em.
Qed.

(** The test that should end the list of points never succeeds: what is compared with a parenthesis is
    the number, not the separator.  The loop ends when a search fails. *)
Theorem points_end_unused (t t' : text) (c : caps) : rsearch list_of_pv_re t = Some (c, t') -> c 1 <> txt ")".
Proof.
  intros E. apply rsearch_somewhere in E as (u & E).
  change (match rmatch (Grp 1 float_re) u no_caps fin with Some x => Some x | None =>
            rmatch (Cat Eps (Grp 2 (Chr sep_char))) u no_caps fin end = Some (c, t')) in E.
  rewrite grp_eq in E. destruct (rmatch float_re u no_caps _) as [x|] eqn:Em.
  - injection E as ->. apply rmatch_takes in Em as (s1 & c1 & E1 & L1). unfold fin in E1. injection E1 as <- <-.
    unfold set_cap. cbn [Nat.eqb]. intros Eq. apply (f_equal (@length ascii)) in Eq.
    rewrite firstn_length in Eq. cbn in Eq, L1. lia.
  - rewrite cat_eq in E. cbn in E. destruct u as [|y u]; [discriminate|]. destruct (sep_char y); [|discriminate].
    injection E as <- <-. discriminate.
Qed.

Lemma seq_fuel n t acc : length t < n -> exists l t', parse_seq n t acc = Ended (l, t') /\ length t' <= length t.
Proof.
  revert t acc. induction n as [|n IH]; intros t acc L; [lia|]. cbn [TrajText_Model.parse_seq]. unfold search_exp.
  destruct (rsearch list_of_pv_re t) as [[c t']|] eqn:E; [|eauto].
  apply rsearch_takes in E. cbn in E. destruct (list_eq_dec ascii_dec (c 2) (txt ")")).
  - do 2 eexists. split; [reflexivity|lia].
  - destruct (IH t' (match c 1 with [] => acc | v => acc ++ [value v] end)) as (l & t2 & E2 & L2); [lia|].
    exists l, t2. split; [exact E2|lia].
Qed.
Lemma pseq_ends t : exists l t', pseq t = Ended (l, t') /\ length t' <= length t.
Proof. apply seq_fuel. lia. Qed.
Lemma point_ends t : exists o, parse_point t = Ended o /\ match o with Some (_, t') => length t' < length t | None => True end.
Proof.
  unfold TrajText_Model.parse_point, search_exp.
  assert (S2 : forall u c u', rsearch comma_pt_re u = Some (c, u') -> length u' < length u).
  { intros u c u' E. apply rsearch_takes in E. cbn in E. lia. }
  destruct (rsearch bg_pt_re t) as [[c t1]|] eqn:E0; [|eexists; split; [reflexivity|exact I]].
  apply rsearch_takes in E0. cbn in E0.
  destruct (pseq_ends t1) as (l1 & u1 & -> & L1). cbn [ebind].
  destruct (rsearch comma_pt_re u1) as [[c1 t2]|] eqn:E1; [|eexists; split; [reflexivity|exact I]].
  apply S2 in E1. destruct (pseq_ends t2) as (l2 & u2 & -> & L2). cbn [ebind].
  destruct (rsearch comma_pt_re u2) as [[c2 t3]|] eqn:E2; [|eexists; split; [reflexivity|exact I]].
  apply S2 in E2. destruct (pseq_ends t3) as (l3 & u3 & -> & L3). cbn [ebind].
  destruct (rsearch comma_pt_re u3) as [[c3 t4]|] eqn:E3; [|eexists; split; [reflexivity|exact I]].
  apply S2 in E3. destruct (pseq_ends t4) as (l4 & u4 & -> & L4). cbn [ebind].
  eexists. split; [reflexivity|]. unfold text in *. cbv iota beta. lia.
Qed.
Lemma points_end n t acc : length t < n -> exists l, points_loop n t acc = Ended (acc ++ l).
Proof.
  revert t acc. induction n as [|n IH]; intros t acc L; [lia|]. cbn [TrajText_Model.points_loop]. unfold search_exp.
  destruct (rsearch bg_pt_re t) as [[c t1]|] eqn:E0; [|exists []; now rewrite app_nil_r].
  apply rsearch_takes in E0. cbn in E0. destruct (point_ends t1) as (o & -> & Ho). cbn [ebind].
  destruct o as [[p t2]|]; [|exists []; now rewrite app_nil_r].
  destruct (rsearch end_pt_re t2) as [[c2 t3]|] eqn:E1; [|exists [p]; reflexivity].
  apply rsearch_takes in E1. cbn in E1.
  destruct (rsearch list_of_pv_re t3) as [[c3 t4]|] eqn:E2; [|exists [p]; reflexivity].
  pose proof (points_end_unused _ _ _ E2) as Hc. destruct (list_eq_dec ascii_dec (c3 1) (txt ")")) as [E|_]; [contradiction|].
  apply rsearch_takes in E2. cbn in E2.
  destruct (IH t4 (acc ++ [p])) as (l & El); [lia|]. exists (p :: l). rewrite El, <- app_assoc. reflexivity.
Qed.
(** The names: a run of the loop is a list of matches, each starting where the previous one ends, ended by a
    closing parenthesis; without it the reading never ends. *)
Inductive names_at : text -> list text -> text -> Prop :=
| names_last t c t' : rsearch list_of_jn_re t = Some (c, t') -> c 2 = txt ")" -> names_at t [c 1] t'
| names_more t c t' l t'' : rsearch list_of_jn_re t = Some (c, t') -> c 2 <> txt ")" -> names_at t' l t'' ->
    names_at t (c 1 :: l) t''.
Lemma names_end n t acc : length t < n ->
  (exists l t', names_at t l t' /\ parse_joint_names n t acc = Ended (acc ++ l, t')) \/
  ((forall l t', ~ names_at t l t') /\ parse_joint_names n t acc = Loops).
Proof.
  revert t acc. induction n as [|n IH]; intros t acc L; [lia|]. cbn [parse_joint_names]. unfold search_exp.
  destruct (rsearch list_of_jn_re t) as [[c t1]|] eqn:E0.
  - pose proof (rsearch_takes _ _ _ _ E0) as L0. cbn in L0.
    destruct (list_eq_dec ascii_dec (c 2) (txt ")")) as [E|E].
    + left. exists [c 1], t1. split; [now constructor|reflexivity].
    + destruct (IH t1 (acc ++ [c 1])) as [(l & t' & N & El)|[N El]]; [lia| |].
      * left. exists (c 1 :: l), t'. split; [eapply names_more; eauto|]. rewrite El, <- app_assoc. reflexivity.
      * right. split; [|exact El]. intros l t' Hn. inversion Hn; subst; rewrite E0 in H; injection H as <- <-; [contradiction|].
        eapply N; eassumption.
  - right. split; [|reflexivity]. intros l t' Hn. inversion Hn; congruence.
Qed.

(** For every text and every trajectory: the reading ends if and only if the names of the joints end with a
    parenthesis, and then it only adds to the names and to the points, and leaves the time stamp. *)
Theorem trajectory_reading (tr : ttraj num) (t : text) :
  let '(tr1, t1) := parse_head num tr t in
  (exists names pts t2, names_at t1 names t2 /\
     deserialize tr t = Ended (mkTt (tt_seq tr1) (tt_stamp tr1) (tt_frame tr1) (tt_names tr ++ names) (tt_points tr ++ pts))) \/
  ((forall names t2, ~ names_at t1 names t2) /\ deserialize tr t = Loops).
Proof.
  unfold TrajText_Model.deserialize. destruct (parse_head num tr t) as [tr1 t1] eqn:E.
  assert (Same : tt_names tr1 = tt_names tr /\ tt_points tr1 = tt_points tr).
  { unfold parse_head in E. destruct (search_exp header_re t) as [[c r]|]; [|now injection E as <- <-].
    destruct (parse_header _ _ _ _) as [sq st]. now injection E as <- <-. }
  destruct Same as [-> ->].
  destruct (names_end (S (length t1)) t1 (tt_names tr)) as [(l & t2 & N & ->)|[N ->]]; [lia| |].
  - left. cbn [ebind]. unfold TrajText_Model.parse_points, search_exp.
    destruct (rsearch bg_liste_of_pts_re t2) as [[c2 t3]|].
    + destruct (points_end (S (length t3)) t3 (tt_points tr)) as (pts & ->); [lia|]. exists l, pts, t2. split; [exact N|reflexivity].
    + exists l, [], t2. split; [exact N|]. now rewrite app_nil_r.
  - right. split; [exact N|reflexivity].
Qed.
End Text.

(** A document: two joints, two points. *)
Definition sample : doc :=
  mkDoc (txt "12") (txt "3.5") (txt "250.") (txt "base_link") [txt "arm_1"; txt "arm_2"]
    [([txt "0.5"; txt "-1.25"], [txt "0.0"; txt "2."], [], []); ([txt "0.75"; txt "10."], [], [], [txt "-0.1"])].
Lemma sample_wf : wf_doc sample.
Proof.
  assert (D : forall a b, a <> [] -> among "-0123456789" a -> among digits b -> decimal (a ++ "."%char :: b)).
  { intros a b. exists a, b. auto. }
  unfold wf_doc, sample. cbn [d_seq d_secs d_nsecs d_frame d_names d_points].
  split; [discriminate|]. split; [reflexivity|].
  split; [apply (D (txt "3") (txt "5")); [discriminate|reflexivity|reflexivity]|].
  split; [apply (D (txt "250") (txt "")); [discriminate|reflexivity|reflexivity]|].
  split; [reflexivity|]. split; [discriminate|].
  split; [repeat constructor; discriminate|].
  repeat match goal with |- Forall _ [] => constructor | |- Forall _ (_ :: _) => constructor | |- _ /\ _ => split end.
  - apply (D (txt "0") (txt "5")); [discriminate|reflexivity|reflexivity].
  - apply (D (txt "-1") (txt "25")); [discriminate|reflexivity|reflexivity].
  - apply (D (txt "0") (txt "0")); [discriminate|reflexivity|reflexivity].
  - apply (D (txt "2") (txt "")); [discriminate|reflexivity|reflexivity].
  - apply (D (txt "0") (txt "75")); [discriminate|reflexivity|reflexivity].
  - apply (D (txt "10") (txt "")); [discriminate|reflexivity|reflexivity].
  - apply (D (txt "-0") (txt "1")); [discriminate|reflexivity|reflexivity].
Qed.
Example sample_text : doc_text sample =
  txt "(12,(3.5,250.),base_link),(arm_1,arm_2),(((0.5,-1.25),(0.0,2.),(),()),((0.75,10.),(),(),(-0.1)))".
Proof. reflexivity. Qed.
Example sample_read : deserialize text (fun w => w) (tt_new text) (doc_text sample ++ txt "; end") =
  Ended (mkTt 12 (0, 0)%Z (txt "base_link") [txt "arm_1"; txt "arm_2"]
    [mkJp [txt "0.5"; txt "-1.25"] [txt "0.0"; txt "2."] [] []; mkJp [txt "0.75"; txt "10."] [] [] [txt "-0.1"]]).
Proof. vm_compute. reflexivity. Qed.

(** Findings.  The time stamp of the text is not read. *)
Theorem trajectory_stamp_refuted : exists d tr, wf_doc d /\ d_secs d = txt "3.5" /\
  deserialize text (fun w => w) (tt_new text) (doc_text d) = Ended tr /\ tt_stamp tr = (0, 0)%Z.
Proof. exists sample. eexists. split; [exact sample_wf|]. split; [reflexivity|]. split; [vm_compute; reflexivity|reflexivity]. Qed.
(** A number with an exponent is read without it; the rest of the point is not affected. *)
Theorem trajectory_exponent_refuted (num : Type) (value : text -> num) :
  pseq num value (txt "1.5e-7,2.0)") = Ended ([value (txt "1.5"); value (txt "2.0")], []).
Proof. vm_compute. reflexivity. Qed.
(** A number without a point is skipped: the following ones take its place. *)
Theorem trajectory_integer_refuted (num : Type) (value : text -> num) :
  pseq num value (txt "1,2.0,3)") = Ended ([value (txt "2.0")], []).
Proof. vm_compute. reflexivity. Qed.
(** Without joint names, a piece of a number is taken for a name and the points are lost. *)
Theorem trajectory_no_joint_refuted (num : Type) (value : text -> num) :
  deserialize num value (tt_new num) (txt "(1,(0.,0.),f),(),(((0.5),(),(),()))") =
  Ended (mkTt 1 (0, 0)%Z (txt "f") [txt "5"] []).
Proof. vm_compute. reflexivity. Qed.
(** A text without names is read for ever; the empty text is one. *)
Theorem trajectory_empty_loops_refuted (num : Type) (value : text -> num) (tr : ttraj num) :
  deserialize num value tr [] = Loops.
Proof. reflexivity. Qed.
(** What follows the trajectory is read as points if it looks like them. *)
Theorem trajectory_trailing_refuted : exists tr,
  deserialize text (fun w => w) (tt_new text) (doc_text sample ++ txt " (((7.0),(),(),()))") = Ended tr /\
  length (tt_points tr) = 3 /\ length (d_points sample) = 2.
Proof. eexists. split; [vm_compute; reflexivity|]. split; reflexivity. Qed.
(** A copy has no joint names. *)
Theorem trajectory_copy_refuted (num : Type) (tr : ttraj num) : tt_names (copy_traj num tr) = [].
Proof. reflexivity. Qed.

(** What the joint trajectory entity keeps of a trajectory (Traj_Model). *)
Definition entity_traj (tr : ttraj R) : traj := mkTraj (tt_stamp tr) (tt_seq tr) (map jp_pos (tt_points tr)).
(** The entity gets exactly the positions of the text, in order, after those it had. *)
Theorem trajectory_positions (value : text -> R) (tr : ttraj R) (d : doc) (rest : text) : wf_doc d -> ~ In "("%char rest ->
  exists tr', deserialize R value tr (doc_text d ++ rest) = Ended tr' /\
    t_seq (entity_traj tr') = number_of (d_seq d) /\
    t_points (entity_traj tr') = t_points (entity_traj tr) ++ map (fun '(a, _, _, _) => map value a) (d_points d).
Proof.
  intros Hd Hr. eexists. split; [apply trajectory_text_partial; assumption|]. split; [reflexivity|].
  cbn [entity_traj t_points tt_points]. rewrite map_app, map_map. f_equal. apply map_ext. intros [[[a b] c] e]. reflexivity.
Qed.

Print Assumptions trajectory_text_partial.
Print Assumptions points_end_unused.
Print Assumptions trajectory_reading.
Print Assumptions trajectory_stamp_refuted.
Print Assumptions trajectory_exponent_refuted.
Print Assumptions trajectory_integer_refuted.
Print Assumptions trajectory_no_joint_refuted.
Print Assumptions trajectory_empty_loops_refuted.
Print Assumptions trajectory_trailing_refuted.
Print Assumptions trajectory_copy_refuted.
Print Assumptions trajectory_positions.
