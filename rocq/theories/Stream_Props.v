(** C103: following a file gives every line written after the first look, once, in order.
    C104: the history of an entity gives back the state of the last recorded tick. *)
From Coq Require Import String List Arith Lia ZArith Bool Ascii.
From Verif Require Import Base Stream_Model.
Import ListNotations.
Local Open Scope list_scope.

(** ** Specification *)
(** A line: not empty, fits in the buffer, no newline and no NUL. *)
Definition good_line (l : text) : Prop := l <> [] /\ (length l <= 255)%nat /\ ~ In NL l /\ ~ In NUL l.
(** The text of complete lines. *)
Definition lines_text (ls : list text) : text := concat (map (fun l => l ++ [NL]) ls).

(** A history of whole lines: what a program that writes complete lines does. *)
Inductive lcmd := LAppend (ls : list text) | LLoop | LNext.
Definition lcmd_of (c : lcmd) : scmd :=
  match c with LAppend ls => Append (lines_text ls) | LLoop => Loop | LNext => Next end.
Definition good_cmd (c : lcmd) : Prop := match c with LAppend ls => Forall good_line ls | _ => True end.

(** What the reader owes to the user: the number of lines in the file at the first look, and at the
    last one. *)
Record look := Look { written : list text; at_first : option nat; at_last : nat }.
Definition see (k : look) (c : lcmd) : look :=
  match c with
  | LAppend ls => Look (written k ++ ls) (at_first k) (at_last k)
  | LLoop => Look (written k) (Some match at_first k with Some n => n | None => length (written k) end) (length (written k))
  | LNext => k
  end.
Definition looks (h : list lcmd) (ls : list text) : look := fold_left see h (Look ls None 0).
(** Lines between the first and the last look. *)
Definition owed (k : look) : list text :=
  match at_first k with
  | None => []
  | Some n => firstn (at_last k - n) (skipn n (written k))
  end.

(** ** Lemmas *)
Lemma ok_inj {A} (a b : A) : Ok a = Ok b -> a = b.
Proof. intros E. now injection E. Qed.

Lemma skipn_plus {A} a b (l : list A) : skipn a (skipn b l) = skipn (a + b) l.
Proof.
  revert l. induction b as [|b IH]; intros l; [now rewrite Nat.add_0_r|].
  destruct l as [|x l]; [now rewrite !skipn_nil|]. rewrite Nat.add_succ_r. apply IH.
Qed.

Lemma is_nl_iff c : is_nl c = true <-> c = NL.
Proof. apply Ascii.eqb_eq. Qed.

Lemma get_line_good l q n : ~ In NL l -> (length l <= n)%nat -> get_line n (l ++ NL :: q) = (l, NL :: q).
Proof.
  revert n. induction l as [|c l IH]; intros n N L.
  - destruct n; reflexivity.
  - destruct n as [|n]; [cbn in L; lia|]. cbn [get_line app].
    destruct (is_nl c) eqn:E; [apply is_nl_iff in E; subst; exfalso; apply N; now left|].
    rewrite IH; [reflexivity| |cbn in L; lia]. intros K. apply N. now right.
Qed.

Lemma c_string_id l : ~ In NUL l -> c_string l = l.
Proof.
  induction l as [|c l IH]; intros N; [reflexivity|]. cbn.
  destruct (is_nul c) eqn:E; [apply Ascii.eqb_eq in E; subst; exfalso; apply N; now left|].
  rewrite IH; [reflexivity|]. intros K. apply N. now right.
Qed.

Lemma read_lines ls : Forall good_line ls -> forall fuel pos s b, (length (lines_text ls) < fuel)%nat -> cursor s = pos ->
  fst (read fuel pos (lines_text ls) s b) =
    Stream (pos + length (lines_text ls)) (first s) (if first s then reader s else reader s ++ ls) /\
  snd (read fuel pos (lines_text ls) s b) = match ls with [] => b | _ => true end.
Proof.
  induction 1 as [|l ls (N & L & Nn & Nz) Hls IH]; intros fuel pos s b F C.
  - unfold lines_text. cbn. destruct fuel; cbn in *; (split; [|reflexivity]); destruct s; cbn in *; subst; rewrite Nat.add_0_r, app_nil_r; now destruct first.
  - destruct fuel as [|fuel]; [lia|].
    assert (E : lines_text (l :: ls) = l ++ NL :: lines_text ls) by (unfold lines_text; cbn; rewrite <- app_assoc; reflexivity).
    rewrite E in *. rewrite app_length in F. cbn [length] in F.
    cbn [read]. change (BUFFER_SIZE - 1) with 255. rewrite get_line_good by assumption.
    destruct l as [|c l]; [congruence|].
    edestruct (IH fuel (pos + length (c :: l) + 1)%nat) as [IH1 IH2]; [lia| |].
    2:{ rewrite IH1, IH2. cbn [first reader]. split; [|now destruct ls].
        rewrite app_length. cbn [length]. f_equal; [lia|]. destruct (first s); [reflexivity|].
        rewrite c_string_id by assumption. rewrite <- app_assoc. reflexivity. }
    reflexivity.
Qed.

Lemma lines_text_app a b : lines_text (a ++ b) = lines_text a ++ lines_text b.
Proof. unfold lines_text. rewrite map_app, concat_app. reflexivity. Qed.

Record rd_inv (k : look) (s : sst) : Prop := {
  ri_file : file s = lines_text (written k);
  ri_good : Forall good_line (written k);
  ri_cursor : cursor (str s) = length (lines_text (firstn (at_last k) (written k)));
  ri_last : (at_last k <= length (written k))%nat;
  ri_first : match at_first k with None => first (str s) = true /\ at_last k = 0 | Some n => first (str s) = false /\ (n <= at_last k)%nat end;
  ri_owed : delivered s ++ reader (str s) = owed k
}.

Lemma rd_step k s c s' : rd_inv k s -> good_cmd c -> sstep s (lcmd_of c) = Ok s' -> rd_inv (see k c) s'.
Proof.
  intros [I1 I2 I3 I4 I5 I6] G E. destruct c as [ls| |]; cbn [lcmd_of sstep see] in *.
  - injection E as <-. constructor; cbn [file str delivered written at_first at_last]; try assumption.
    + rewrite lines_text_app. now rewrite I1.
    + apply Forall_app. auto.
    + rewrite firstn_app. replace (at_last k - length (written k)) with 0 by lia. rewrite app_nil_r. exact I3.
    + rewrite app_length. lia.
    + rewrite I6. unfold owed. cbn [at_first at_last written]. destruct (at_first k) as [n|]; [|reflexivity].
      destruct I5 as [_ I5]. rewrite skipn_app, firstn_app, skipn_length.
      replace (at_last k - n - (length (written k) - n)) with 0 by lia. rewrite app_nil_r. reflexivity.
  - apply ok_inj in E. subst s'. set (w := written k) in *. set (m := at_last k) in *.
    assert (Sp : w = firstn m w ++ skipn m w) by (symmetry; apply firstn_skipn).
    assert (Rest : skipn (cursor (str s)) (file s) = lines_text (skipn m w)).
    { rewrite I1, I3. rewrite Sp at 2. rewrite lines_text_app, skipn_app, skipn_all, Nat.sub_diag. reflexivity. }
    assert (Gs : Forall good_line (skipn m w)) by (rewrite Sp in I2; apply Forall_app in I2; tauto).
    unfold loop. rewrite Rest.
    destruct (read_lines _ Gs (S (length (lines_text (skipn m w)))) (cursor (str s)) (str s) false) as [R1 R2]; [lia|reflexivity|].
    destruct (read _ _ _ _ _) as [s2 b2]. cbn [fst snd] in R1, R2. subst s2.
    constructor; cbn [file str delivered written at_first at_last fst cursor first reader]; try assumption.
    + rewrite firstn_all, I3, <- app_length, <- lines_text_app, firstn_skipn. reflexivity.
    + fold w. lia.
    + split; [reflexivity|]. destruct (at_first k); fold w; lia.
    + unfold owed. cbn [at_first at_last written]. fold w. destruct (at_first k) as [n|] eqn:Ef.
      * destruct I5 as [I5 In]. rewrite I5. rewrite app_assoc, I6. unfold owed. rewrite Ef. fold w m.
        assert (X : firstn (length w - n) (skipn n w) = skipn n w) by (apply firstn_all2; rewrite skipn_length; lia). rewrite X.
        replace (skipn m w) with (skipn (m - n) (skipn n w)).
        -- apply firstn_skipn.
        -- rewrite skipn_plus. f_equal. lia.
      * destruct I5 as [I5 I5']. rewrite I5. rewrite I6. unfold owed. rewrite Ef. rewrite Nat.sub_diag. reflexivity.
  - unfold next in E. destruct (reader (str s)) as [|l r] eqn:Er; [discriminate|]. cbn in E. injection E as <-.
    constructor; cbn [file str delivered cursor first reader fst snd]; try assumption.
    rewrite <- I6, <- app_assoc. reflexivity.
Qed.

(** Whatever the order of writing, looking and reading, the lines given to the user followed by the
    lines waiting are the lines written between the first and the last look. *)
Theorem stream_lines h ls s : Forall good_line ls -> Forall good_cmd h ->
  ofold sstep (map lcmd_of h) (sstart (lines_text ls)) = Ok s ->
  delivered s ++ reader (str s) = owed (looks h ls).
Proof.
  intros Gl Gh E. cut (rd_inv (looks h ls) s); [intros []; assumption|].
  assert (H0 : rd_inv (Look ls None 0) (sstart (lines_text ls))).
  { constructor; cbn; try reflexivity; try assumption; try lia; auto. }
  unfold looks. revert H0 E. generalize (Look ls None 0) (sstart (lines_text ls)). revert Gh.
  induction h as [|c h IH]; intros Gh k s0 H0 E; cbn [map ofold fold_left] in *.
  - injection E as <-. exact H0.
  - inversion Gh as [|? ? Gc Gr]; subst. destruct (sstep s0 (lcmd_of c)) as [s1| |] eqn:K; [|discriminate..].
    exact (IH Gr _ _ (rd_step _ _ _ _ H0 Gc K) E).
Qed.

(** A look at a file that is not there finds nothing, keeps the lines that wait, and counts as the
    first look: when the file comes, all its lines are given. *)
Theorem stream_missing_file s : snd (loop None s) = false /\ reader (fst (loop None s)) = reader s /\
  cursor (fst (loop None s)) = cursor s.
Proof. repeat split. Qed.
Theorem stream_file_comes ls n : Forall good_line ls ->
  let s := Nat.iter (S n) (fun s => fst (loop None s)) conti in
  reader (fst (loop (Some (lines_text ls)) s)) = ls.
Proof.
  intros G s. assert (E : s = Stream 0 false []).
  { unfold s. clear. induction n as [|n IH]; [reflexivity|].
    change (fst (loop None (Nat.iter (S n) (fun s => fst (loop None s)) conti)) = Stream 0 false []). now rewrite IH. }
  rewrite E. unfold loop. cbn [cursor skipn].
  destruct (read_lines _ G (S (length (lines_text ls))) 0 (Stream 0 false []) false) as [R _]; [lia|reflexivity|].
  destruct (read _ _ _ _ _) as [s2 b2]. cbn [fst] in R. subst s2. reflexivity.
Qed.

(** Reading is undefined only when nothing is waiting. *)
Theorem stream_next s : sstep s Next = UB <-> ready (str s) = false.
Proof. unfold sstep, next, ready. destruct (reader (str s)); cbn; split; congruence. Qed.

(** An empty line stops the reader for ever: whatever is written after it is never given. *)
Theorem stream_blank_refuted s t : (cursor (str s) < length (file s))%nat -> skipn (cursor (str s)) (file s) = NL :: t ->
  first (str s) = false -> forall w, sstep s Loop = Ok s /\
  exists s', ofold sstep [Append w; Loop] s = Ok s' /\ str s' = str s.
Proof.
  intros L E F w.
  assert (G : forall u, fst (loop (Some (file s ++ u)) (str s)) = str s).
  { intros u. unfold loop. rewrite skipn_app, E. replace (cursor (str s) - length (file s)) with 0 by lia. cbn. destruct (str s). cbn in *. now subst. }
  split.
  - specialize (G []). rewrite app_nil_r in G. transitivity (Ok (Sst (file s) (str s) (delivered s))); [|now destruct s].
    rewrite <- G at 1. reflexivity.
  - eexists. split; [reflexivity|]. cbn [str]. apply G.
Qed.

(** A last line that is not complete when the reader looks: the whole file is given again at the
    next look. *)
Definition s_ (s : string) : text := list_ascii_of_string s.
Theorem stream_partial_line_refuted : exists s,
  ofold sstep [Loop; Append (lines_text [s_ "one"]); Append (s_ "tw"); Loop; Append (s_ "o" ++ [NL]); Loop] (sstart []) = Ok s /\
  reader (str s) = [s_ "one"; s_ "tw"; s_ "one"; s_ "two"].
Proof. eexists. split; reflexivity. Qed.

(** A line longer than the buffer is cut and loses the character at the cut. *)
Theorem stream_long_line_refuted : exists c s, let l := repeat c 257 in
  ofold sstep [Loop; Append (l ++ [NL]); Loop] (sstart []) = Ok s /\ reader (str s) = [repeat c 255; [c]].
Proof. exists "a"%char. eexists. cbv zeta. split; vm_compute; reflexivity. Qed.

Example stream_example : exists s,
  let h := [LAppend [s_ "before"]; LLoop; LAppend [s_ "one"; s_ "two"]; LLoop; LNext; LAppend [s_ "three"]; LLoop; LNext; LAppend [s_ "late"]] in
  Forall good_cmd h /\ ofold sstep (map lcmd_of h) (sstart []) = Ok s /\ delivered s = [s_ "one"; s_ "two"] /\ reader (str s) = [s_ "three"] /\
  owed (looks h []) = [s_ "one"; s_ "two"; s_ "three"].
Proof.
  assert (G : forall l, l <> EmptyString -> (String.length l <= 255)%nat -> forallb (fun c => negb (is_nl c) && negb (is_nul c)) (s_ l) = true -> good_line (s_ l)).
  { intros l N L F. assert (In' : forall c, In c (s_ l) -> c <> NL /\ c <> NUL).
    { intros c K. rewrite forallb_forall in F. apply F in K. apply andb_prop in K as [A B]. split; intros ->; discriminate. }
    split; [destruct l; [congruence|discriminate]|]. split.
    - assert (X : length (s_ l) = String.length l) by (clear; induction l as [|c l IH]; [reflexivity|]; unfold s_ in *; cbn; now rewrite IH). lia.
    - split; intros K; apply In' in K; tauto. }
  eexists. cbv zeta. split; [repeat constructor; apply G; try discriminate; try reflexivity; cbn; lia|].
  split; [vm_compute; reflexivity|]. vm_compute. auto.
Qed.

(* ------------------------------------------------------------------ *)
(** ** History *)
Section Hist.
Context {V : Type}.

(** Recording at the ticks [ticks], the entity being at [q i] with velocity [v i] at tick [i]. *)
Definition recorded (q v : Z -> V) (ticks : list Z) (h : hist V) : outcome (hist V) :=
  ofold (fun h i => record i (q i) (v i) h) ticks h.

Lemma recorded_lists q v ticks h : (0 < h_freq h)%Z ->
  recorded q v ticks h = Ok (Hist (h_q h ++ map q (filter (fun i => i mod h_freq h =? 0)%Z ticks))
                                  (h_qdot h ++ map v (filter (fun i => i mod h_freq h =? 0)%Z ticks)) (h_freq h)).
Proof.
  revert h. induction ticks as [|i l IH]; intros h F.
  - cbn. rewrite !app_nil_r. now destruct h.
  - unfold recorded in *. cbn [ofold filter]. unfold record at 1. destruct (h_freq h =? 0)%Z eqn:Hz; [lia|].
    destruct (i mod h_freq h =? 0)%Z; cbn [bind]; rewrite IH by assumption; cbn [h_q h_qdot h_freq map]; [|reflexivity].
    rewrite <- !app_assoc. reflexivity.
Qed.

(** The consecutive ticks 0, 1, ..., n - 1. *)
Definition ticks_to (n : nat) : list Z := map Z.of_nat (seq 0 n).

Lemma multiples f n : (0 < f)%Z -> filter (fun i => i mod f =? 0)%Z (ticks_to n) =
  map (fun k => Z.of_nat k * f)%Z (seq 0 (Z.to_nat ((Z.of_nat n + f - 1) / f))).
Proof.
  intros F. unfold ticks_to. induction n as [|n IH].
  - cbn [seq map filter]. replace ((Z.of_nat 0 + f - 1) / f)%Z with 0%Z; [reflexivity|].
    symmetry. apply Z.div_small. lia.
  - rewrite seq_S, map_app, filter_app, IH. cbn [map filter Nat.add].
    destruct (Z.of_nat n mod f =? 0)%Z eqn:M.
    + apply Z.eqb_eq in M. pose proof (Z.div_mod (Z.of_nat n) f ltac:(lia)) as D. rewrite M, Z.add_0_r in D.
      set (k := (Z.of_nat n / f)%Z) in *. assert (0 <= k)%Z by (apply Z.div_pos; lia).
      replace ((Z.of_nat n + f - 1) / f)%Z with k.
      2:{ apply Z.div_unique with (f - 1)%Z; lia. }
      replace ((Z.of_nat (S n) + f - 1) / f)%Z with (k + 1)%Z.
      2:{ apply Z.div_unique with 0%Z; lia. }
      replace (Z.to_nat (k + 1)) with (S (Z.to_nat k)) by lia. rewrite seq_S, map_app. cbn [map Nat.add].
      f_equal. f_equal. rewrite Z2Nat.id by assumption. lia.
    + apply Z.eqb_neq in M. rewrite app_nil_r. f_equal. f_equal. f_equal.
      pose proof (Z.div_mod (Z.of_nat n) f ltac:(lia)) as D. pose proof (Z.mod_pos_bound (Z.of_nat n) f F) as B.
      set (k := (Z.of_nat n / f)%Z) in *. set (r := (Z.of_nat n mod f)%Z) in *.
      transitivity (k + 1)%Z; [symmetry; apply Z.div_unique with (r - 1)%Z; lia|].
      apply Z.div_unique with r%Z; lia.
Qed.

(** When every tick from 0 on is recorded, restoring a tick gives the position and the velocity at
    the last tick, up to it, that is a multiple of the frequency. *)
Theorem history_restores q v n f t : (0 < f)%Z -> (0 <= t < Z.of_nat n)%Z ->
  exists h, recorded q v (ticks_to n) (history f) = Ok h /\
  let t' := (t - t mod f)%Z in
  (t' <= t < t' + f)%Z /\ (t' mod f = 0)%Z /\
  exists k, restore t h = Ok (q t', v t', k).
Proof.
  intros F T. rewrite recorded_lists by exact F. cbn [history h_q h_qdot h_freq app]. eexists. split; [reflexivity|]. cbv zeta.
  pose proof (Z.mod_pos_bound t f F) as B. split; [lia|]. split.
  { rewrite Zminus_mod_idemp_r. replace (t - t)%Z with 0%Z by lia. reflexivity. }
  unfold restore. cbn [h_freq h_q h_qdot]. destruct (f =? 0)%Z eqn:Hz; [lia|]. cbv zeta.
  rewrite Z.quot_div_nonneg by lia. pose proof (Z.div_mod t f ltac:(lia)) as D.
  set (k := (t / f)%Z) in *. assert (K0 : (0 <= k)%Z) by (apply Z.div_pos; lia).
  assert (KB : (Z.to_nat k < Z.to_nat ((Z.of_nat n + f - 1) / f))%nat).
  { apply Z2Nat.inj_lt; [assumption|apply Z.div_pos; lia|]. apply Z.lt_le_trans with (k + 1)%Z; [lia|].
    apply Z.div_le_lower_bound; [lia|]. nia. }
  assert (G : forall (w : Z -> V), pyget (map w (filter (fun i => i mod f =? 0)%Z (ticks_to n))) k = Ok (w (t - t mod f)%Z)).
  { intros w. rewrite multiples, map_map by assumption. unfold pyget. destruct (k <? 0)%Z eqn:N; [lia|]. rewrite N.
    rewrite (map_nth_error (fun x => w (Z.of_nat x * f)%Z) (Z.to_nat k) _ (d := Z.to_nat k)).
    - f_equal. f_equal. rewrite Z2Nat.id by assumption. lia.
    - rewrite (nth_error_nth' _ 0) by (rewrite seq_length; exact KB). rewrite seq_nth by exact KB. reflexivity. }
  rewrite !G. cbn [bind]. eauto.
Qed.

(** The time printed as T0 is the index in the list, not the time of the restored state. *)
Theorem history_time_refuted q v : q 100%Z <> q 1%Z -> exists h k, recorded q v (ticks_to 201) (history 100) = Ok h /\
  restore 100 h = Ok (q 100%Z, v 100%Z, k) /\ q k <> q 100%Z.
Proof.
  intros N. destruct (history_restores q v 201 100 100 ltac:(lia) ltac:(lia)) as (h & E & _ & _ & k & R).
  exists h. exists 1%Z. split; [exact E|]. change (100 - 100 mod 100)%Z with 100%Z in R.
  assert (k = 1%Z) as ->.
  { unfold restore in R. rewrite recorded_lists in E by reflexivity. injection E as <-. cbn [h_freq history] in R.
    change (100 =? 0)%Z with false in R. cbv iota zeta in R. change (100 ÷ 100)%Z with 1%Z in R.
    destruct (pyget _ 1); [|discriminate..]. destruct (pyget _ 1); [|discriminate..]. cbn in R. now injection R. }
  split; [exact R|]. congruence.
Qed.

(** A period of zero is accepted when the history is created; every use of it raises an exception. *)
Theorem history_zero_refuted q v n t : (exists w, restore t (history (V := V) 0) = Throw w) /\
  (0 < n -> exists w, recorded q v (ticks_to n) (history 0) = Throw w).
Proof.
  split; [eexists; reflexivity|]. destruct n as [|n]; [lia|]. intros _. eexists. reflexivity.
Qed.

(** When recording starts later, every restored state is wrong by the ticks before. *)
Theorem history_late_start_refuted q v : exists h k, recorded q v (map (fun i => i + 100)%Z (ticks_to 201)) (history 100) = Ok h /\
  restore 100 h = Ok (q 200%Z, v 200%Z, k).
Proof.
  rewrite recorded_lists by reflexivity. do 2 eexists. split; [reflexivity|].
  assert (E : filter (fun i => i mod 100 =? 0)%Z (map (fun i => i + 100)%Z (ticks_to 201)) = [100; 200; 300]%Z) by (vm_compute; reflexivity).
  cbn [history h_q h_qdot h_freq app]. rewrite E. reflexivity.
Qed.
End Hist.

Example history_example : exists h, recorded (fun i => i * i)%Z (fun i => 2 * i)%Z (ticks_to 10) (history 3) = Ok h /\
  restore 8 h = Ok (36, 12, 2)%Z.
Proof. eexists. split; reflexivity. Qed.

Print Assumptions stream_lines.
Print Assumptions stream_next.
Print Assumptions stream_blank_refuted.
Print Assumptions stream_partial_line_refuted.
Print Assumptions stream_long_line_refuted.
Print Assumptions history_restores.
Print Assumptions history_time_refuted.
Print Assumptions history_late_start_refuted.
Print Assumptions stream_missing_file.
Print Assumptions stream_file_comes.
Print Assumptions history_zero_refuted.
