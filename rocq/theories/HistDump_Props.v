(** C121: what a recorded history holds of the zero moment point, and the files it writes. *)
From Coq Require Import String Ascii List Arith Lia ZArith Bool Reals Lra.
From Verif Require Import Base Geom_Model Geom_Facts HistDump_Model.
Import ListNotations.
Local Open Scope string_scope.
Local Open Scope list_scope.

(* ------------------------------------------------------------------ *)
(** * Recording *)

Definition sampled (freq : Z) (c : zcall) : bool := (c_time c mod freq =? 0)%Z.

(** [p] is the point of coordinates [z] in the world, seen from the waist. *)
Definition seen_from_waist (c : zcall) (p : list R) : Prop :=
  exists x y w a, c_zmp c = PTuple [x; y; w] /\ p = [vx a; vy a; vz a; 1%R] /\
    happ (c_waist c) a = V3 x y w.

Lemma happ_inv m p : mdet (lin m) <> 0%R ->
  happ m (vadd (mapp (lin (hinv m)) p) (vscal 1 (trn (hinv m)))) = p.
Proof.
  intros Hd. pose proof (hinv_r m Hd) as E.
  assert (S : vscal 1 (trn (hinv m)) = trn (hinv m)).
  { generalize (trn (hinv m)) as t. intros []. unfold vscal. cbn. f_equal; ring. }
  rewrite S. clear S.
  change (vadd (mapp (lin (hinv m)) p) (trn (hinv m))) with (happ (hinv m) p).
  assert (A : happ m (happ (hinv m) p) = happ (hmul m (hinv m)) p).
  { unfold happ, hmul. cbn [lin trn]. destruct (hinv m) as [[] []], m as [[] []], p. unfold vadd, mapp, mmul.
    cbn. f_equal; ring. }
  rewrite A, E. destruct p. unfold happ, hid, mapp, vadd, mid, v0.
  cbn. f_equal; ring.
Qed.

Lemma z_run_app h a b : z_run h (a ++ b) = z_run (z_run h a) b.
Proof. apply fold_left_app. Qed.

(** Every iteration that is a multiple of the period is recorded, in order; the point is recorded with it,
    in the frame of the waist. *)
Theorem zmp_recorded : forall freq names cs, freq <> 0%Z -> In "waist" names ->
  Forall (fun c => (exists x y w, c_zmp c = PTuple [x; y; w]) /\ mdet (lin (c_waist c)) <> 0%R) cs ->
  let h := z_run (z_new freq true names) cs in
  let kept := filter (sampled freq) cs in
  z_q h = map c_q kept /\ z_qdot h = map c_qdot kept /\ Forall2 seen_from_waist kept (z_zmp h).
Proof.
  intros freq names cs Hf Hn. cbv zeta.
  assert (Hw : existsb (String.eqb "waist") names = true).
  { apply existsb_exists. exists "waist". split; [exact Hn|reflexivity]. }
  enough (G : Forall (fun c => (exists x y w, c_zmp c = PTuple [x; y; w]) /\ mdet (lin (c_waist c)) <> 0%R) cs ->
    let h := z_run (z_new freq true names) cs in
    (z_q h = map c_q (filter (sampled freq) cs) /\ z_qdot h = map c_qdot (filter (sampled freq) cs) /\
     Forall2 seen_from_waist (filter (sampled freq) cs) (z_zmp h)) /\ z_freq h = freq /\ z_with h = true).
  { intros F. apply G in F. apply F. }
  cbv zeta. induction cs as [|c cs IH] using rev_ind; intros F.
  - unfold z_run, z_new. rewrite Hw. cbn. repeat split; constructor.
  - apply Forall_app in F. destruct F as [F Fc]. inversion Fc as [|? ? [(x & y & w & Ez) Hd] _]; subst.
    destruct (IH F) as ((A & B & D) & E1 & E2). rewrite z_run_app.
    set (h := z_run (z_new freq true names) cs) in *. cbn [z_run fold_left].
    unfold z_record. rewrite E1, E2. apply Z.eqb_neq in Hf. rewrite Hf.
    rewrite filter_app, !map_app. cbn [filter]. unfold sampled at 2 4 6.
    destruct (c_time c mod freq =? 0)%Z; cbn [map app].
    + rewrite Ez. cbn [zmp_in_waist app fst z_q z_qdot z_zmp z_freq z_with].
      rewrite A, B. repeat split; auto.
      apply Forall2_app; [exact D|]. constructor; [|constructor].
      exists x, y, w. eexists. split; [exact Ez|]. split; [reflexivity|]. apply happ_inv. exact Hd.
    + rewrite !app_nil_r. cbn [fst]. auto.
Qed.

(** Without a signal, or without an output waist, no point is recorded. *)
Theorem zmp_not_recorded : forall freq zmp names cs, freq <> 0%Z -> zmp = false \/ ~ In "waist" names ->
  let h := z_run (z_new freq zmp names) cs in
  let kept := filter (sampled freq) cs in
  z_q h = map c_q kept /\ z_qdot h = map c_qdot kept /\ z_zmp h = [] /\ z_with h = false.
Proof.
  intros freq zmp names cs Hf Hn. cbv zeta.
  assert (Hw : zmp && existsb (String.eqb "waist") names = false).
  { destruct Hn as [->|Hn]; [reflexivity|]. apply andb_false_iff. right.
    destruct (existsb (String.eqb "waist") names) eqn:E; [|reflexivity].
    apply existsb_exists in E. destruct E as (y & Hy & Ey). apply String.eqb_eq in Ey. subst. contradiction. }
  enough (G : let h := z_run (z_new freq zmp names) cs in
    (z_q h = map c_q (filter (sampled freq) cs) /\ z_qdot h = map c_qdot (filter (sampled freq) cs) /\
     z_zmp h = [] /\ z_with h = false) /\ z_freq h = freq) by apply G.
  cbv zeta. induction cs as [|c cs IH] using rev_ind.
  - unfold z_run, z_new. rewrite Hw. cbn. auto.
  - destruct IH as ((A & B & D & E2) & E1). rewrite z_run_app.
    set (h := z_run (z_new freq zmp names) cs) in *. cbn [z_run fold_left].
    unfold z_record. rewrite E1, E2. pose proof (proj2 (Z.eqb_neq freq 0) Hf) as Hb. rewrite Hb.
    rewrite filter_app, !map_app. cbn [filter]. unfold sampled at 2 4.
    destruct (c_time c mod freq =? 0)%Z; cbn [map app fst z_q z_qdot z_zmp z_freq z_with].
    + rewrite A, B, D. auto.
    + rewrite !app_nil_r. auto.
Qed.

(** Finding: when the signal gives numpy arrays, the sum with (1,) does not append: every recording raises
    after the position was stored, and no point is ever recorded. *)
Theorem zmp_array_refuted : forall freq names cs, freq <> 0%Z -> In "waist" names ->
  Forall (fun c => exists x y w, c_zmp c = PArray [x; y; w]) cs ->
  let h := z_run (z_new freq true names) cs in
  z_zmp h = [] /\ z_q h = map c_q (filter (sampled freq) cs) /\
  (forall c, In c cs -> sampled freq c = true ->
     snd (z_record (c_time c) (c_q c) (c_qdot c) (c_waist c) (c_zmp c) h) = Throw "ValueError").
Proof.
  intros freq names cs Hf Hn F. cbv zeta.
  assert (Hw : existsb (String.eqb "waist") names = true).
  { apply existsb_exists. exists "waist". split; [exact Hn|reflexivity]. }
  pose proof (proj2 (Z.eqb_neq freq 0) Hf) as Hb.
  assert (G : forall cs, Forall (fun c => exists x y w, c_zmp c = PArray [x; y; w]) cs ->
    let h := z_run (z_new freq true names) cs in
    z_zmp h = [] /\ z_q h = map c_q (filter (sampled freq) cs) /\ z_freq h = freq /\ z_with h = true).
  { clear cs F. cbv zeta. induction cs as [|c cs IH] using rev_ind; intros F; [unfold z_run, z_new; rewrite Hw; cbn; auto|].
    apply Forall_app in F. destruct F as [F Fc]. inversion Fc as [|? ? (x & y & w & Ez) _]; subst.
    destruct (IH F) as (A & B & E1 & E2). rewrite z_run_app.
    set (h := z_run (z_new freq true names) cs) in *. cbn [z_run fold_left].
    unfold z_record. rewrite E1, E2, Hb, filter_app, map_app. cbn [filter]. unfold sampled at 2.
    destruct (c_time c mod freq =? 0)%Z; cbn [map app].
    - rewrite Ez. cbn [zmp_in_waist map fst z_q z_qdot z_zmp z_freq z_with]. rewrite B. auto.
    - rewrite app_nil_r. cbn [fst]. auto. }
  destruct (G cs F) as (A & B & E1 & E2). split; [exact A|]. split; [exact B|].
  intros c Hc Hs. unfold z_record. rewrite E1, E2, Hb. unfold sampled in Hs. rewrite Hs.
  rewrite Forall_forall in F. destruct (F c Hc) as (x & y & w & ->). reflexivity.
Qed.

(* ------------------------------------------------------------------ *)
(** * Files *)

(** Specification: a text is cut at a character; the lines and the words are the pieces that are not empty. *)
Fixpoint cut (c : ascii) (s : string) : list string :=
  match s with
  | EmptyString => [""]
  | String a r =>
      if Ascii.eqb a c then "" :: cut c r
      else match cut c r with w :: l => String a w :: l | [] => [String a ""] end
  end.
Definition pieces (c : ascii) (s : string) : list string :=
  filter (fun w => negb (String.eqb w "")) (cut c s).
Definition lines (s : string) : list string := pieces (ascii_of_nat 10) s.
Definition words (s : string) : list string := pieces " "%char s.
Definition table (s : string) : list (list string) := map words (lines s).

(** A text that can be a word. *)
Fixpoint has (c : ascii) (s : string) : bool :=
  match s with EmptyString => false | String a r => Ascii.eqb a c || has c r end.
Definition word (s : string) : Prop := s <> "" /\ has " "%char s = false /\ has (ascii_of_nat 10) s = false.

Lemma has_app c a b : has c (append a b) = has c a || has c b.
Proof. induction a as [|x a IH]; simpl; auto. rewrite IH. apply orb_assoc. Qed.
Lemma app_assoc_s a b c : append (append a b) c = append a (append b c).
Proof. induction a as [|x a IH]; simpl; [reflexivity|]. rewrite IH. reflexivity. Qed.
Lemma app_nil_s a : append a "" = a.
Proof. induction a as [|x a IH]; simpl; [reflexivity|]. rewrite IH. reflexivity. Qed.
Lemma cut_sep c a b : has c a = false -> cut c (append a (String c b)) = a :: cut c b.
Proof.
  induction a as [|x a IH]; simpl.
  - intros _. rewrite Ascii.eqb_refl. reflexivity.
  - intros H. apply orb_false_iff in H. destruct H as [H1 H2]. rewrite H1, IH by exact H2. reflexivity.
Qed.
Lemma cut_none c a : has c a = false -> cut c a = [a].
Proof.
  induction a as [|x a IH]; simpl; [reflexivity|].
  intros H. apply orb_false_iff in H. destruct H as [H1 H2]. rewrite H1, IH by exact H2. reflexivity.
Qed.
Lemma pieces_sep c a b : a <> "" -> has c a = false -> pieces c (append a (String c b)) = a :: pieces c b.
Proof.
  intros Hn H. unfold pieces. rewrite cut_sep by exact H. cbn [filter].
  destruct (String.eqb_spec a ""); [contradiction|]. reflexivity.
Qed.
Lemma pieces_skip c b : pieces c (String c b) = pieces c b.
Proof. unfold pieces. simpl. rewrite Ascii.eqb_refl. reflexivity. Qed.
Lemma pieces_one c a : a <> "" -> has c a = false -> pieces c a = [a].
Proof.
  intros Hn H. unfold pieces. rewrite cut_none by exact H. cbn [filter].
  destruct (String.eqb_spec a ""); [contradiction|]. reflexivity.
Qed.

Section Files.
Context {num : Type}.
Variables (str : num -> string) (stamp : nat -> num) (deg : num -> num) (d : num).
Hypothesis Hstr : forall x, word (str x).

(** The columns of a file: time stamp of the sample, then some coefficients. *)
Definition row (idx : list nat) (qs : list (list num)) (i : nat) : list string :=
  map str (stamp i :: map (fun j => nth j (nth i qs []) d) idx).

(** A good line: its words, followed by a newline. *)
Definition is_line (s : string) (w : list string) : Prop :=
  exists b, s = append b (String (ascii_of_nat 10) "") /\ has (ascii_of_nat 10) b = false /\ b <> "" /\ words b = w.

Fixpoint join (l : list num) : string :=
  match l with [] => "" | [x] => str x | x :: r => append (str x) (append " " (join r)) end.
Lemma spaced_join x l : spaced str (x :: l) = append (join (x :: l)) nl.
Proof.
  revert x; induction l as [|y l IH]; intros x; [reflexivity|].
  change (spaced str (x :: y :: l)) with (append (str x) (append " " (spaced str (y :: l)))).
  rewrite IH. change (join (x :: y :: l)) with (append (str x) (append " " (join (y :: l)))).
  rewrite !app_assoc_s. reflexivity.
Qed.
Lemma join_line x l : is_line (spaced str (x :: l)) (map str (x :: l)).
Proof.
  exists (join (x :: l)). split; [apply spaced_join|].
  assert (N : has (ascii_of_nat 10) (join (x :: l)) = false).
  { revert x; induction l as [|y l IH]; intros x; [apply Hstr|].
    change (join (x :: y :: l)) with (append (str x) (append " " (join (y :: l)))).
    rewrite !has_app, IH. destruct (Hstr x) as (_ & _ & ->). reflexivity. }
  split; [exact N|]. split.
  - destruct (Hstr x) as (Hx & _). destruct l as [|y l]; [exact Hx|]. simpl.
    destruct (str x); [contradiction|discriminate].
  - revert x N; induction l as [|y l IH]; intros x _.
    + destruct (Hstr x) as (H1 & H2 & _). apply pieces_one; assumption.
    + change (join (x :: y :: l)) with (append (str x) (String " " (join (y :: l)))).
      destruct (Hstr x) as (H1 & H2 & _). unfold words. rewrite pieces_sep by assumption.
      cbn [map]. f_equal. apply IH.
      clear -Hstr. revert y; induction l as [|z l IH]; intros y; [apply Hstr|].
      change (join (y :: z :: l)) with (append (str y) (append " " (join (z :: l)))).
      rewrite !has_app, IH. destruct (Hstr y) as (_ & _ & ->). reflexivity.
Qed.

Lemma pick (idx : list nat) (q : list num) acc : (forall j, In j idx -> j < length q) ->
  ofold (fun l j => let* x := pyidx q j in Ok (l ++ [x])) idx acc = Ok (acc ++ map (fun j => nth j q d) idx).
Proof.
  revert acc; induction idx as [|j idx IH]; intros acc H; [cbn; rewrite app_nil_r; reflexivity|].
  cbn [ofold map]. unfold pyidx at 1. destruct (nth_error q j) as [x|] eqn:E.
  - cbn [bind]. rewrite IH by (intros; apply H; right; assumption).
    rewrite (nth_error_nth _ _ d E), <- app_assoc. reflexivity.
  - apply nth_error_None in E. specialize (H j (or_introl eq_refl)). lia.
Qed.
Lemma pick_bad (idx : list nat) (q : list num) acc j : In j idx -> length q <= j ->
  ofold (fun l j => let* x := pyidx q j in Ok (l ++ [x])) idx acc = Throw "IndexError".
Proof.
  intros Hin Hj. revert acc; induction idx as [|k idx IH]; intros acc; [destruct Hin|]. cbn [ofold].
  destruct Hin as [->|Hin].
  - unfold pyidx at 1. rewrite (proj2 (nth_error_None q j) Hj). reflexivity.
  - unfold pyidx at 1. destruct (nth_error q k); cbn [bind]; [|reflexivity]. apply IH. exact Hin.
Qed.

Lemma line_of_ok idx n q : (forall j, In j idx -> j < length q) ->
  exists s, line_of str stamp idx n q = Ok s /\ is_line s (map str (stamp n :: map (fun j => nth j q d) idx)).
Proof.
  intros H. unfold line_of. rewrite pick by exact H. cbn [bind]. eexists. split; [reflexivity|]. apply join_line.
Qed.

Lemma pos_fold (q : list num) : forall k m s, m + k <= length q ->
  ofold (fun s j => let* x := pyidx q j in Ok (append s (append (str x) " "))) (seq m k) s
  = Ok (append s (fold_right (fun j t => append (str (nth j q d)) (String " " t)) "" (seq m k))).
Proof.
  induction k as [|k IH]; intros m s H; cbn [seq ofold fold_right].
  - rewrite app_nil_s. reflexivity.
  - unfold pyidx at 1. destruct (nth_error q m) as [x|] eqn:E; [|apply nth_error_None in E; lia].
    cbn [bind]. rewrite IH by lia. rewrite (nth_error_nth _ _ d E), !app_assoc_s. reflexivity.
Qed.
Lemma zeros_words : words " 0 0 0 0 0 0 0 0 0 0" = repeat "0" 10.
Proof. reflexivity. Qed.
Lemma words_fold (f : nat -> num) l t :
  words (append (fold_right (fun j t => append (str (f j)) (String " " t)) "" l) t)
  = map (fun j => str (f j)) l ++ words t.
Proof.
  induction l as [|j l IH]; [reflexivity|]. cbn [fold_right map app].
  rewrite app_assoc_s. cbn [append]. destruct (Hstr (f j)) as (H1 & H2 & _).
  unfold words in *. rewrite pieces_sep by assumption. rewrite IH. reflexivity.
Qed.
Lemma nonl_fold (f : nat -> num) l :
  has (ascii_of_nat 10) (fold_right (fun j t => append (str (f j)) (String " " t)) "" l) = false.
Proof.
  induction l as [|j l IH]; [reflexivity|]. cbn [fold_right]. rewrite has_app.
  destruct (Hstr (f j)) as (_ & _ & ->). exact IH.
Qed.
Lemma pos_line_ok n q : 36 <= length q ->
  exists s, pos_line str stamp n q = Ok s /\
    is_line s (map str (stamp n :: map (fun j => nth j q d) (seq 6 30)) ++ repeat "0" 10).
Proof.
  intros H. unfold pos_line, ofor_range. rewrite pos_fold by lia. cbn [bind]. eexists. split; [reflexivity|].
  exists (append (str (stamp n)) (String " " (append
    (fold_right (fun j t => append (str (nth j q d)) (String " " t)) "" (seq 6 30)) " 0 0 0 0 0 0 0 0 0 0"))).
  split.
  { change (36 - 6) with 30. generalize (seq 6 30) as l. intros l. rewrite !app_assoc_s. cbn [append].
    rewrite !app_assoc_s. reflexivity. }
  destruct (Hstr (stamp n)) as (H1 & H2 & H3). split; [|split].
  - rewrite has_app, H3. cbn [orb has]. rewrite has_app, (nonl_fold (fun j => nth j q d)). reflexivity.
  - destruct (str (stamp n)); [contradiction|discriminate].
  - unfold words. rewrite pieces_sep by assumption. fold words. cbn [map app]. f_equal.
    change (pieces " " ?x) with (words x). rewrite (words_fold (fun j => nth j q d)), zeros_words, map_map. reflexivity.
Qed.

Lemma lines_app b rest : has (ascii_of_nat 10) b = false -> b <> "" ->
  lines (append (append b (String (ascii_of_nat 10) "")) rest) = b :: lines rest.
Proof. intros H1 H2. unfold lines. rewrite app_assoc_s. cbn [append]. apply pieces_sep; assumption. Qed.

Lemma write_ok (line : nat -> list num -> outcome string) (want : nat -> list num -> list string) :
  forall qs, (forall n q, In q qs -> exists s, line n q = Ok s /\ is_line s (want n q)) ->
  exists s, write_all line qs = Ok s /\
    table s = map (fun i => want i (nth i qs [])) (seq 0 (length qs)).
Proof.
  intros qs. unfold write_all.
  assert (G : forall qs n acc, (forall n q, In q qs -> exists s, line n q = Ok s /\ is_line s (want n q)) ->
    exists s, ofold (fun st q => let '(n, s) := st in let* l := line n q in Ok (S n, append s l)) qs (n, acc)
      = Ok (n + length qs, append acc s) /\
      table s = map (fun i => want (n + i) (nth i qs [])) (seq 0 (length qs))).
  { clear qs. induction qs as [|q qs IH]; intros n acc H.
    - exists "". cbn. rewrite Nat.add_0_r, app_nil_s. auto.
    - destruct (H n q (or_introl eq_refl)) as (l & El & b & -> & B1 & B2 & B3).
      cbn [ofold]. rewrite El. cbn [bind].
      destruct (IH (S n) (append acc (append b (String (ascii_of_nat 10) "")))) as (s & E & T).
      { intros; apply H; right; assumption. }
      exists (append (append b (String (ascii_of_nat 10) "")) s). rewrite E. split.
      + cbn [length]. rewrite (app_assoc_s acc). replace (S n + length qs) with (n + S (length qs)) by lia. reflexivity.
      + unfold table in *. rewrite lines_app by assumption. cbn [map length seq]. rewrite B3, T. cbn [nth].
        rewrite Nat.add_0_r. f_equal. rewrite <- seq_shift, map_map. apply map_ext. intros i.
        replace (n + S i) with (S n + i) by lia. reflexivity. }
  intros H. destruct (G qs 0 "" H) as (s & E & T). rewrite E. exists s. split; [reflexivity|]. exact T.
Qed.

(** The files, read back as tables of words: one line for each sample; the line starts with the time stamp of
    the sample.  [.hip]: the orientation of the waist; [.waist]: its position and orientation; [.pos]: the thirty
    joints and ten zeros; [.zmp]: the zero moment point, when it was recorded; [_pos0.py]: the joints of the first
    sample in degrees, and ten zeros. *)
Theorem dump_files : forall qs zmps w sample,
  qs <> [] -> Forall (fun q => 36 <= length q) qs -> (w = true -> Forall (fun z => 3 <= length z) zmps) ->
  exists f, dump str stamp deg qs zmps w sample = Ok f /\
    table (f_hip f) = map (row [3; 4; 5] qs) (seq 0 (length qs)) /\
    table (f_waist f) = map (row [0; 1; 2; 3; 4; 5] qs) (seq 0 (length qs)) /\
    table (f_pos f) = map (fun i => row (seq 6 30) qs i ++ repeat "0" 10) (seq 0 (length qs)) /\
    (w = false -> f_zmp f = None) /\
    (w = true -> exists z, f_zmp f = Some z /\ table z = map (row [0; 1; 2] zmps) (seq 0 (length zmps))) /\
    exists t, f_pos0 f = append "dyninv_posinit = '" (append t "'") /\
      words t = map (fun j => str (deg (nth j (nth 0 qs []) d))) (seq 6 30) ++ repeat "0" 10.
Proof.
  intros qs zmps w sample Hne Hq Hz. rewrite Forall_forall in Hq.
  unfold dump.
  destruct (write_ok (line_of str stamp [3; 4; 5])
    (fun n q => map str (stamp n :: map (fun j => nth j q d) [3; 4; 5])) qs) as (hip & E1 & T1).
  { intros n q Hin. apply line_of_ok. intros j Hj. specialize (Hq q Hin). simpl in Hj. lia. }
  destruct (write_ok (line_of str stamp [0; 1; 2; 3; 4; 5])
    (fun n q => map str (stamp n :: map (fun j => nth j q d) [0; 1; 2; 3; 4; 5])) qs) as (wai & E2 & T2).
  { intros n q Hin. apply line_of_ok. intros j Hj. specialize (Hq q Hin). simpl in Hj. lia. }
  destruct (write_ok (pos_line str stamp)
    (fun n q => map str (stamp n :: map (fun j => nth j q d) (seq 6 30)) ++ repeat "0" 10) qs) as (pos & E3 & T3).
  { intros n q Hin. apply pos_line_ok. apply Hq. exact Hin. }
  rewrite E1, E2, E3. cbn [bind].
  assert (Zm : exists o, (if w then let* z := write_all (line_of str stamp [0; 1; 2]) zmps in Ok (Some z) else Ok None) = Ok o /\
    (w = false -> o = None) /\
    (w = true -> exists z, o = Some z /\ table z = map (row [0; 1; 2] zmps) (seq 0 (length zmps)))).
  { destruct w.
    - specialize (Hz eq_refl). rewrite Forall_forall in Hz.
      destruct (write_ok (line_of str stamp [0; 1; 2])
        (fun n q => map str (stamp n :: map (fun j => nth j q d) [0; 1; 2])) zmps) as (z & E & T).
      { intros n q Hin. apply line_of_ok. intros j Hj. specialize (Hz q Hin). simpl in Hj. lia. }
      rewrite E. cbn [bind]. eexists. split; [reflexivity|]. split; [discriminate|]. intros _. exists z. auto.
    - eexists. split; [reflexivity|]. split; [reflexivity|discriminate]. }
  destruct Zm as (o & Eo & Z1 & Z2). rewrite Eo. cbn [bind].
  destruct qs as [|q0 qs]; [congruence|]. eexists. split; [reflexivity|].
  cbn [f_hip f_waist f_pos f_zmp f_pos0]. repeat (split; [assumption|]).
  specialize (Hq q0 (or_introl eq_refl)).
  exists (append (fold_right (fun j t => append (str (deg (nth j q0 d))) (String " " t)) "" (seq 6 30))
            "   0 0 0 0 0 0 0 0 0 0  ").
  cbn [nth]. split.
  - unfold pos0_text.
    assert (F : forall l s, fold_left (fun s x => append s (append (str (deg x)) " ")) (map (fun j => nth j q0 d) l) s
      = append s (fold_right (fun j t => append (str (deg (nth j q0 d))) (String " " t)) "" l)).
    { induction l as [|j l IH]; intros s; cbn [map fold_left fold_right]; [rewrite app_nil_s; reflexivity|].
      rewrite IH, !app_assoc_s. reflexivity. }
    assert (Sk : firstn 30 (skipn 6 q0) = map (fun j => nth j q0 d) (seq 6 30)).
    { clear -Hq. do 6 (destruct q0 as [|? q0]; [cbn in Hq; lia|]). cbn [skipn].
      change (seq 6 30) with (map (fun j => 6 + j) (seq 0 30)). rewrite map_map.
      assert (K : forall k (l : list num), k <= length l -> firstn k l = map (fun j => nth j l d) (seq 0 k)).
      { intros k. induction k as [|k IH]; intros [|x l] H; try reflexivity; [cbn in H; lia|].
        cbn [firstn seq map nth]. f_equal. rewrite <- seq_shift, map_map. apply IH. cbn in H. lia. }
      rewrite K by (cbn in Hq; lia). apply map_ext. intros j. reflexivity. }
    rewrite Sk, F, !app_assoc_s. reflexivity.
  - rewrite (words_fold (fun j => deg (nth j q0 d))). f_equal.
Qed.

(** Nothing is checked before the files are opened: an empty history and a sample with less than 36 coefficients
    both raise. *)
Theorem dump_raises : forall qs zmps sample,
  qs = [] \/ (exists q, In q qs /\ length q < 36) ->
  dump str stamp deg qs zmps false sample = Throw "IndexError".
Proof.
  intros qs zmps sample H. unfold dump.
  assert (W : forall (line : nat -> list num -> outcome string),
    (forall n q, (exists s, line n q = Ok s) \/ line n q = Throw "IndexError") ->
    (exists s, write_all line qs = Ok s /\ forall q, In q qs -> exists n s', line n q = Ok s') \/
    write_all line qs = Throw "IndexError").
  { intros line Hl. unfold write_all. clear H. generalize (0, "") as st.
    induction qs as [|q r IH]; intros [n s].
    - left. exists s. split; [reflexivity|]. intros q [].
    - cbn [ofold]. destruct (Hl n q) as [(l & E)|E]; rewrite E; cbn [bind]; [|right; reflexivity].
      destruct (IH (S n, append s l)) as [(s' & E' & A)|E']; [left|right; exact E'].
      exists s'. split; [exact E'|]. intros q' [<-|Hin]; [exists n, l; exact E|]. apply A. exact Hin. }
  assert (L : forall idx n q, (exists s, line_of str stamp idx n q = Ok s) \/ line_of str stamp idx n q = Throw "IndexError").
  { intros idx n q. unfold line_of.
    destruct (Forall_Exists_dec (fun j => j < length q) (fun j => lt_dec j (length q)) idx) as [F|F].
    - rewrite Forall_forall in F. rewrite pick by exact F. left. eexists. reflexivity.
    - apply Exists_exists in F. destruct F as (j & Hj & Hb). rewrite (pick_bad idx q [] j) by (assumption || lia).
      right. reflexivity. }
  assert (PB : forall q k m s, length q < m + k -> m <= length q ->
    ofold (fun s j => let* x := pyidx q j in Ok (append s (append (str x) " "))) (seq m k) s = Throw "IndexError").
  { intros q. induction k as [|k IH]; intros m s H1 H2; [lia|]. cbn [seq ofold]. unfold pyidx at 1.
    destruct (nth_error q m) eqn:E; [|reflexivity]. cbn [bind].
    assert (m < length q) by (apply nth_error_Some; congruence). apply IH; lia. }
  assert (PL : forall n q, length q < 36 -> pos_line str stamp n q = Throw "IndexError").
  { intros n q Hq. unfold pos_line, ofor_range.
    destruct (Nat.le_gt_cases 6 (length q)).
    - rewrite PB by lia. reflexivity.
    - cbn [Nat.sub seq ofold]. unfold pyidx at 1.
      rewrite (proj2 (nth_error_None q 6)) by lia. reflexivity. }
  assert (P : forall n q, (exists s, pos_line str stamp n q = Ok s) \/ pos_line str stamp n q = Throw "IndexError").
  { intros n q. destruct (Nat.le_gt_cases 36 (length q)) as [Hq|Hq].
    - destruct (pos_line_ok n q Hq) as (s & E & _). left. exists s. exact E.
    - right. apply PL. exact Hq. }
  destruct (W _ (L [3; 4; 5])) as [(s1 & -> & _) | -> ]; [|reflexivity]. cbn [bind].
  destruct (W _ (L [0; 1; 2; 3; 4; 5])) as [(s2 & -> & _) | -> ]; [|reflexivity]. cbn [bind].
  destruct (W _ P) as [(s3 & -> & A) | -> ]; [|reflexivity]. cbn [bind].
  destruct H as [->|(q & Hin & Hq)]; [reflexivity|].
  destruct (A q Hin) as (n & s' & E). rewrite PL in E by exact Hq. discriminate.
Qed.
End Files.

Example dump_case :
  let str (n : nat) := if Nat.even n then "2" else "-1.5" in
  let q := seq 0 40 in
  (forall x, word (str x)) /\ Forall (fun q => 36 <= length q) [q; q] /\
  exists f, dump str (fun n => n) (fun x => x) [q; q] [[1; 2; 3]] true 7 = Ok f /\
    table (f_hip f) = [["2"; "-1.5"; "2"; "-1.5"]; ["-1.5"; "-1.5"; "2"; "-1.5"]].
Proof.
  split; [|split].
  - intros x. unfold word. destruct (Nat.even x); repeat split; discriminate.
  - repeat constructor.
  - let r := eval vm_compute in (dump (fun n : nat => if Nat.even n then "2" else "-1.5") (fun n => n) (fun x => x)
      [seq 0 40; seq 0 40] [[1; 2; 3]] true 7) in
    match r with Ok ?f => exists f end.
    split; vm_compute; reflexivity.
Qed.

Example zmp_case :
  let c := ZCall 100 [1%R] [2%R] hid (PTuple [1%R; 2%R; 3%R]) in
  (exists x y w, c_zmp c = PTuple [x; y; w]) /\ mdet (lin (c_waist c)) <> 0%R /\ sampled 50 c = true.
Proof.
  cbv zeta. split; [do 3 eexists; reflexivity|]. split; [|reflexivity].
  unfold mdet. cbn. intros E. ring_simplify in E. lra.
Qed.

Print Assumptions zmp_recorded.
Print Assumptions zmp_not_recorded.
Print Assumptions zmp_array_refuted.
Print Assumptions dump_files.
Print Assumptions dump_raises.
