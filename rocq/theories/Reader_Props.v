(** C66: the reader replays the rows of the files. *)
From Coq Require Import String List Arith Lia ZArith Bool.
From Verif Require Import Base Flags_Model Reader_Model.
Import ListNotations.

Section ReaderProps.
Context {num chr : Type} (numbers : list chr -> list num) (junk : num).
Notation reader := (reader num).
Notation rexec := (rexec num chr numbers junk).
Notation getNextData := (getNextData num junk).

(** ** Specification *)
(** Column [i] is selected. *)
Definition bit (f : Flags) (i : nat) : bool := nth i (flags f) (outOfRangeFlag f).
(** The selected columns of a row whose first column is number [k]. *)
Fixpoint pick (f : Flags) (k : nat) (row : list num) : list num :=
  match row with [] => [] | x :: r => if bit f k then x :: pick f (S k) r else pick f (S k) r end.
(** The rows of a file: its non-empty lines. *)
Definition file_rows (lines : list (list chr)) : list (list num) :=
  filter (fun r => negb (length r =? 0)) (map numbers lines).
(** A replay: all the rows, those still to come, and whether the end was met. *)
Record replay := mkReplay { p_all : list (list num); p_todo : list (list num); p_over : bool; p_out : list num }.
Definition pstep (p : replay) (c : rcmd chr) : replay :=
  match c with
  | RLoad _ l => mkReplay (p_all p ++ file_rows l) (if p_over p then [] else p_todo p ++ file_rows l) (p_over p) (p_out p)
  | RClear _ => mkReplay [] [] false (p_out p)
  | RRewind _ => mkReplay (p_all p) (p_all p) false (p_out p)
  | RResize _ _ _ => p
  | RNext _ f => match p_todo p with
                 | row :: r => mkReplay (p_all p) r false (pick f 0 row)
                 | [] => mkReplay (p_all p) [] true (p_out p)
                 end
  end.

(** Files whose lines have at most 1023 characters. *)
Definition short_lines (lines : list (list chr)) : Prop := Forall (fun l => length l <= 1023) lines.
Definition wf_cmd (c : rcmd chr) : Prop := match c with RLoad _ l => short_lines l | _ => True end.

(** ** Selection *)
Lemma at_bit f i : at_ f (Z.of_nat i) = Ok (bit f i).
Proof.
  unfold at_, bit. destruct (Z.ltb_spec (Z.of_nat i) (Z.of_nat (length (flags f)))) as [Hl|Hl].
  - destruct (Z.ltb_spec (Z.of_nat i) 0); [lia|]. rewrite Nat2Z.id. apply vget_ok. lia.
  - rewrite nth_overflow by lia. reflexivity.
Qed.
Lemma pick_app f k a b : pick f k (a ++ b) = pick f k a ++ pick f (k + length a) b.
Proof.
  revert k. induction a as [|x a IH]; intros k; cbn; [now rewrite Nat.add_0_r|].
  rewrite IH, Nat.add_succ_comm. destruct (bit f k); reflexivity.
Qed.
Lemma pick_prefix f (row : list num) i x : nth_error row i = Some x ->
  pick f 0 (firstn (S i) row) = pick f 0 (firstn i row) ++ (if bit f i then [x] else []).
Proof.
  intros E. assert (Hl : i < length row) by (apply nth_error_Some; congruence).
  assert (F : firstn (S i) row = firstn i row ++ [x]).
  { revert i E Hl. induction row as [|y r IH]; intros [|i] E Hl; cbn in *; try discriminate; try lia.
    - now injection E as ->.
    - rewrite <- IH; [reflexivity|exact E|lia]. }
  rewrite F, pick_app. rewrite firstn_length, Nat.min_l by lia. cbn. destruct (bit f i); reflexivity.
Qed.
Lemma count_pick f row : count_sel num f row = Ok (length (pick f 0 row)).
Proof.
  unfold count_sel.
  destruct (ofor_range_ind (fun i d => d = length (pick f 0 (firstn i row))) 0 (length row)
    (fun i dim => let* b := at_ f (Z.of_nat i) in Ok (if (b : bool) then S dim else dim)) 0) as (s & E & Hs).
  - lia.
  - reflexivity.
  - intros i d Hi ->. rewrite at_bit. cbn [bind]. eexists. split; [reflexivity|].
    destruct (nth_error row i) as [x|] eqn:N; [|apply nth_error_None in N; lia].
    rewrite (pick_prefix _ _ _ _ N), app_length. destruct (bit f i); cbn; lia.
  - rewrite E, Hs, firstn_all. reflexivity.
Qed.
Lemma pick_firstn_le f row i : length (pick f 0 (firstn i row)) <= length (pick f 0 row).
Proof. rewrite <- (firstn_skipn i row) at 2. rewrite pick_app, app_length. lia. Qed.
Lemma firstn_upd_S {A} (v : list A) k x : k < length v -> firstn (S k) (upd v k x) = firstn k v ++ [x].
Proof. revert k. induction v as [|y v IH]; intros [|k] Hk; cbn in *; try lia; [reflexivity|]. rewrite <- IH by lia. reflexivity. Qed.
Lemma fill_pick f row v0 : length v0 = length (pick f 0 row) ->
  fill_sel num f row v0 = Ok (length (pick f 0 row), pick f 0 row).
Proof.
  intros Hv. unfold fill_sel.
  destruct (ofor_range_ind (fun i st => fst st = length (pick f 0 (firstn i row)) /\ length (snd st) = length (pick f 0 row) /\
      firstn (fst st) (snd st) = pick f 0 (firstn i row)) 0 (length row)
    (fun i st => let* b := at_ f (Z.of_nat i) in
       if (b : bool) then let* x := vget row i in let* v := vset (snd st) (fst st) x in Ok (S (fst st), v)
       else Ok st) (0, v0)) as ((k & v) & E & H1 & H2 & H3).
  - lia.
  - cbn. auto.
  - intros i [k v] Hi (H1 & H2 & H3). cbn [fst snd] in *. rewrite at_bit. cbn [bind].
    destruct (nth_error row i) as [x|] eqn:N; [|apply nth_error_None in N; lia].
    pose proof (pick_prefix f _ _ _ N) as P. pose proof (pick_firstn_le f row (S i)) as L.
    destruct (bit f i).
    + unfold vget. rewrite N. cbn [bind]. unfold vset. rewrite P, app_length in L. cbn in L.
      destruct (Nat.ltb_spec k (length v)); [|lia]. cbn [bind]. eexists. split; [reflexivity|]. cbn [fst snd].
      rewrite P, app_length, upd_length, firstn_upd_S, H3 by assumption. cbn. repeat split; lia.
    + eexists. split; [reflexivity|]. cbn [fst snd]. rewrite P, app_nil_r. auto.
  - cbn [fst snd] in *. rewrite firstn_all in *. rewrite E. f_equal. rewrite <- H1. f_equal.
    rewrite <- H3. rewrite <- (firstn_all v) at 1. f_equal. lia.
Qed.

(** An evaluation puts the selected columns of the row under the cursor in the output. *)
Theorem next_selects s f n row : move num s = At n -> nth_error (r_data _ s) n = Some row ->
  exists s', getNextData s f = Ok s' /\ r_vec _ s' = pick f 0 row /\ r_data _ s' = r_data _ s.
Proof.
  intros Hm Hn. unfold getNextData, Reader_Model.getNextData. rewrite Hm. unfold vget. rewrite Hn. cbn [bind].
  rewrite count_pick. cbn [bind]. rewrite fill_pick.
  - cbn [bind snd]. eexists. split; [reflexivity|]. split; reflexivity.
  - destruct (Nat.eqb_spec (length (r_vec _ s)) (length (pick f 0 row))); [assumption|apply repeat_length].
Qed.

(** ** Loading *)
Lemma load_rows lines d : short_lines lines -> load_lines num chr numbers lines d = d ++ file_rows lines.
Proof.
  intros Hs. revert d. induction Hs as [|l r Hl Hr IH]; intros d; cbn; [now rewrite app_nil_r|].
  destruct (Nat.leb_spec (length l) 1023); [|lia]. rewrite IH. unfold add_row, file_rows. cbn [map filter].
  destruct (numbers l) as [|x t]; cbn; [reflexivity|]. now rewrite <- app_assoc.
Qed.
(** A longer line is cut, and the rest of the file is not read. *)
Theorem long_line_refuted l1 l2 r d : length l1 > 1023 ->
  load_lines num chr numbers (l1 :: l2 :: r) d = load_lines num chr numbers [firstn 1023 l1] d.
Proof.
  intros Hl. cbn [load_lines]. destruct (Nat.leb_spec (length l1) 1023); [lia|].
  rewrite firstn_length, Nat.min_l by lia. destruct (Nat.leb_spec 1023 1023); [reflexivity|lia].
Qed.

(** ** Replay of any history *)
Definition rep (s : reader) (p : replay) : Prop :=
  r_data _ s = p_all p /\ r_vec _ s = p_out p /\
  match r_cur _ s with
  | Unset => p_todo p = p_all p /\ p_over p = false
  | At n => n < length (p_all p) /\ p_todo p = skipn (S n) (p_all p) /\ p_over p = false
  | End => p_todo p = [] /\ p_over p = true
  end.

Lemma skipn_cons {A} (l : list A) n : match skipn n l with [] => length l <= n | x :: r => nth_error l n = Some x /\ skipn (S n) l = r end.
Proof.
  revert n. induction l as [|a l IH]; intros [|n]; cbn; try lia; auto.
  specialize (IH n). destruct (skipn n l); [lia|]. destruct IH as [-> E]. split; [reflexivity|]. exact E.
Qed.

Lemma at_or_end_rep s f p c k : r_data _ s = p_all p -> r_vec _ s = p_out p -> move num s = c ->
  c = at_or_end num (r_data _ s) k -> p_todo p = skipn k (p_all p) -> p_over p = false ->
  exists s', getNextData s f = Ok s' /\ rep s' (pstep p (RNext _ f)).
Proof.
  intros Hd Hv Hm -> Ht Ho. unfold at_or_end in Hm. rewrite Hd in Hm. pose proof (skipn_cons (p_all p) k) as S.
  cbn [pstep]. rewrite Ht. destruct (skipn k (p_all p)) as [|row r] eqn:Sk.
  - destruct (Nat.ltb_spec k (length (p_all p))); [lia|]. unfold getNextData, Reader_Model.getNextData. rewrite Hm.
    eexists. split; [reflexivity|]. cbn. unfold rep. cbn. auto.
  - destruct S as [N S]. assert (k < length (p_all p)) by (apply nth_error_Some; congruence).
    destruct (Nat.ltb_spec k (length (p_all p))); [|lia].
    destruct (next_selects s f k row Hm) as (s' & E & V & D); [now rewrite Hd|].
    exists s'. split; [exact E|]. unfold rep. cbn. rewrite D, V. split; [assumption|]. split; [reflexivity|].
    assert (C : r_cur _ s' = At k).
    { clear - E Hm. unfold getNextData, Reader_Model.getNextData in E. rewrite Hm in E.
      destruct (vget (r_data num s) k); try discriminate. cbn in E. destruct (count_sel num f a); try discriminate. cbn in E.
      match goal with E : bind ?x _ = _ |- _ => destruct x; try discriminate end. cbn in E. now injection E as <-. }
    rewrite C. split; [lia|]. split; [|reflexivity]. now rewrite <- S.
Qed.

Theorem reader_step s p c : wf_cmd c -> rep s p -> exists s', rexec s c = Ok s' /\ rep s' (pstep p c).
Proof.
  intros Hw (Hd & Hv & Hc). destruct c as [l| | |r k|f]; cbn [Reader_Model.rexec].
  - eexists. split; [reflexivity|]. unfold rep. cbn [load r_data r_vec r_cur pstep p_all p_out p_todo p_over]. cbn in Hw. rewrite (load_rows _ _ Hw), Hd. split; [reflexivity|].
    split; [assumption|]. destruct (r_cur _ s) as [|n|].
    + destruct Hc as [Ht Ho]. rewrite Ho, Ht. auto.
    + destruct Hc as (Hn & Ht & Ho). rewrite Ho, Ht. rewrite app_length. split; [lia|]. split; [|reflexivity].
      rewrite skipn_app. replace (S n - length (p_all p)) with 0 by lia. reflexivity.
    + destruct Hc as [Ht Ho]. rewrite Ho. auto.
  - eexists. split; [reflexivity|]. unfold rep. cbn. auto.
  - eexists. split; [reflexivity|]. unfold rep. cbn. auto.
  - eexists. split; [reflexivity|]. unfold rep. cbn. auto.
  - destruct (r_cur _ s) as [|n|] eqn:C.
    + destruct Hc as [Ht Ho]. eapply at_or_end_rep with (k := 0); eauto. unfold move. now rewrite C.
    + destruct Hc as (Hn & Ht & Ho). eapply at_or_end_rep with (k := S n); eauto. unfold move. now rewrite C.
    + destruct Hc as [Ht Ho]. unfold getNextData, Reader_Model.getNextData, move. rewrite C. eexists. split; [reflexivity|].
      unfold rep. cbn [pstep]. rewrite Ht. cbn. auto.
Qed.

Definition replay_new : replay := mkReplay [] [] false [].

(** Every history is defined and its outputs are those of the replay.  Missing: files with a line longer than
    the buffer (long_line_refuted). *)
Theorem reader_replays_partial cs : Forall wf_cmd cs ->
  exists s, ofold rexec cs (r_new num) = Ok s /\ rep s (fold_left pstep cs replay_new) /\
    r_vec _ s = p_out (fold_left pstep cs replay_new).
Proof.
  intros Hw. cut (exists s, ofold rexec cs (r_new num) = Ok s /\ rep s (fold_left pstep cs replay_new)).
  { intros (s & E & R). exists s. split; [exact E|]. split; [exact R|]. apply R. }
  assert (R0 : rep (r_new num) replay_new) by (unfold rep; cbn; auto).
  revert R0. generalize (r_new num) replay_new. induction Hw as [|c cs Hc Hcs IH]; intros s p R; cbn.
  - eauto.
  - destruct (reader_step s p c Hc R) as (s' & -> & R'). cbn [bind]. apply IH, R'.
Qed.

(** ** Consequences *)
(** The successive outputs of evaluations. *)
Fixpoint outputs (s : reader) (fs : list Flags) : outcome (list (list num)) :=
  match fs with
  | [] => Ok []
  | f :: r => let* s' := getNextData s f in let* o := outputs s' r in Ok (r_vec _ s' :: o)
  end.
Fixpoint pick_all (fs : list Flags) (rows : list (list num)) (last : list num) : list (list num) :=
  match fs with
  | [] => []
  | f :: r => match rows with
              | row :: rs => pick f 0 row :: pick_all r rs (pick f 0 row)
              | [] => last :: pick_all r [] last
              end
  end.
Lemma outputs_rep fs : forall s p, rep s p -> outputs s fs = Ok (pick_all fs (p_todo p) (p_out p)).
Proof.
  induction fs as [|f r IH]; intros s p R; cbn [outputs pick_all]; [reflexivity|].
  destruct (reader_step s p (RNext _ f) I R) as (s' & E & R'). cbn [Reader_Model.rexec] in E. rewrite E. cbn [bind].
  rewrite (IH _ _ R'). cbn [bind]. destruct R' as (_ & V & _). rewrite V. cbn [pstep].
  destruct (p_todo p); reflexivity.
Qed.

(** After any history ending with rewind, evaluations give the selected columns of all the rows loaded since
    the last clear, in order; then the last output is kept. *)
Theorem rewind_replays_all cs fs : Forall wf_cmd cs ->
  exists s, ofold rexec (cs ++ [RRewind _]) (r_new num) = Ok s /\
    outputs s fs = Ok (pick_all fs (p_all (fold_left pstep cs replay_new)) (p_out (fold_left pstep cs replay_new))).
Proof.
  intros Hw. destruct (reader_replays_partial (cs ++ [RRewind _])) as (s & E & R & _).
  { apply Forall_app. split; [assumption|]. constructor; [exact I|constructor]. }
  exists s. split; [exact E|]. rewrite (outputs_rep fs s _ R). rewrite fold_left_app. reflexivity.
Qed.

(** The rows known to the reader are those of the files loaded since the last clear. *)
Fixpoint loaded (acc : list (list num)) (cs : list (rcmd chr)) : list (list num) :=
  match cs with
  | [] => acc
  | RLoad _ l :: r => loaded (acc ++ file_rows l) r
  | RClear _ :: r => loaded [] r
  | _ :: r => loaded acc r
  end.
Theorem rows_loaded cs : p_all (fold_left pstep cs replay_new) = loaded [] cs.
Proof.
  change [] with (p_all replay_new). generalize replay_new. induction cs as [|c cs IH]; intros p; [reflexivity|].
  destruct c as [l| | | |f]; cbn; rewrite IH; try reflexivity. destruct (p_todo p); reflexivity.
Qed.

(** Once the end was met, files loaded afterwards are not played until rewind. *)
Theorem load_after_end_refuted row l f : pick f 0 row <> [] -> file_rows l = [row] -> short_lines l ->
  exists s, ofold rexec [RNext _ f; RLoad _ l; RNext _ f; RNext _ f] (r_new num) = Ok s /\ r_vec _ s = [] /\
    r_data _ s = [row].
Proof.
  intros _ Hl Hs. destruct (reader_replays_partial [RNext _ f; RLoad _ l; RNext _ f; RNext _ f]) as (s & E & R & V).
  { repeat constructor; auto. }
  exists s. split; [exact E|]. rewrite V. destruct R as [-> _]. cbn. rewrite Hl. split; reflexivity.
Qed.

(** ** Matrix output *)
(** When the vector is long enough the matrix is its row-major reshape, and nothing else changes. *)
Theorem matrix_row_major (s : reader) rows cols : r_rows _ s = Z.of_nat rows -> r_cols _ s = Z.of_nat cols ->
  rows * cols <= length (r_vec _ s) ->
  exists s', getNextMatrix num s = Ok s' /\
    s' = mkReader _ (r_data _ s) (r_cur _ s) (r_rows _ s) (r_cols _ s) (r_vec _ s) (r_mat _ s') /\
    length (r_mat _ s') = rows /\
    forall i j d, i < rows -> j < cols ->
      length (nth i (r_mat _ s') []) = cols /\ nth j (nth i (r_mat _ s') []) d = nth (i * cols + j) (r_vec _ s) d.
Proof.
  intros Hr Hc Hl. unfold getNextMatrix. rewrite Hr, Hc.
  destruct (Z.ltb_spec (Z.of_nat (length (r_vec num s))) (Z.of_nat rows * Z.of_nat cols)); [lia|].
  destruct (Z.ltb_spec (Z.of_nat rows) 0); [lia|]. destruct (Z.ltb_spec (Z.of_nat cols) 0); [lia|]. cbn [orb].
  rewrite !Nat2Z.id.
  assert (Row : forall i, i < rows -> exists row,
    ofor_range 0 cols (fun j row => let* x := vget (r_vec num s) (i * cols + j) in Ok (row ++ [x])) [] = Ok row /\
    length row = cols /\ forall j d, j < cols -> nth j row d = nth (i * cols + j) (r_vec num s) d).
  { intros i Hi.
    destruct (ofor_range_ind (fun k row => length row = k /\ forall j d, j < k -> nth j row d = nth (i * cols + j) (r_vec num s) d)
      0 cols (fun j row => let* x := vget (r_vec num s) (i * cols + j) in Ok (row ++ [x])) []) as (row & E & P).
    - lia.
    - cbn. split; [reflexivity|lia].
    - intros k row Hk [G1 G2]. assert (Hb : i * cols + k < length (r_vec num s)) by nia.
      unfold vget. destruct (nth_error (r_vec num s) (i * cols + k)) as [x|] eqn:N; [|apply nth_error_None in N; lia].
      cbn [bind]. eexists. split; [reflexivity|]. rewrite app_length. cbn. split; [lia|]. intros j d Hj.
      destruct (Nat.eq_dec j k) as [->|Hn].
      + rewrite app_nth2 by lia. rewrite G1, Nat.sub_diag. cbn. symmetry. now apply nth_error_nth.
      + rewrite app_nth1 by lia. apply G2. lia.
    - exists row. split; [exact E|]. exact P. }
  destruct (ofor_range_ind (fun k m => length m = k /\ forall i j d, i < k -> j < cols ->
       length (nth i m []) = cols /\ nth j (nth i m []) d = nth (i * cols + j) (r_vec num s) d) 0 rows
    (fun i m => let* row := ofor_range 0 cols (fun j row => let* x := vget (r_vec num s) (i * cols + j) in Ok (row ++ [x])) [] in
        Ok (m ++ [row])) []) as (m & E & P).
  - lia.
  - cbn. split; [reflexivity|lia].
  - intros k m Hk [G1 G2]. destruct (Row k ltac:(lia)) as (row & E & L & N). rewrite E. cbn [bind].
    eexists. split; [reflexivity|]. rewrite app_length. cbn. split; [lia|]. intros i j d Hi Hj.
    destruct (Nat.eq_dec i k) as [->|Hn].
    + rewrite app_nth2 by lia. rewrite G1, Nat.sub_diag. cbn. auto.
    + rewrite app_nth1 by lia. apply G2; lia.
  - rewrite E. cbn [bind]. eexists. split; [reflexivity|]. split; [reflexivity|]. exact P.
Qed.
(** A row too short for the size asked leaves the previous matrix, silently. *)
Theorem matrix_stale_refuted (s : reader) : (Z.of_nat (length (r_vec _ s)) < r_rows _ s * r_cols _ s)%Z ->
  getNextMatrix num s = Ok s.
Proof. intros Hl. unfold getNextMatrix. apply Z.ltb_lt in Hl. now rewrite Hl. Qed.

(** A size with one negative side, which resize takes, is undefined when the next matrix is read, whatever the row. *)
Theorem matrix_negative_refuted (s : reader) r c : (r < 0 <= c \/ c < 0 <= r)%Z ->
  getNextMatrix num (resize num s r c) = UB.
Proof.
  intros H. unfold getNextMatrix, resize. cbn [r_rows r_cols r_vec]. replace (Z.of_nat _ <? r * c)%Z with false by (symmetry; apply Z.ltb_ge; nia).
  replace ((r <? 0)%Z || (c <? 0)%Z) with true; [reflexivity|]. symmetry. apply orb_true_iff. rewrite !Z.ltb_lt. lia.
Qed.

(** The size of the matrices is the last one that was set; the commands that are not a reading
    leave the last outputs. *)
Definition last_size (z : Z * Z) (c : rcmd chr) : Z * Z := match c with RResize _ r k => (r, k) | _ => z end.
Theorem reader_size cs s : ofold rexec cs (r_new num) = Ok s ->
  (r_rows _ s, r_cols _ s) = fold_left last_size cs (0, 0)%Z.
Proof.
  change (0, 0)%Z with (r_rows _ (r_new num), r_cols _ (r_new num)). generalize (r_new num).
  induction cs as [|c cs IH]; intros s0 E; cbn in E.
  - injection E as <-. reflexivity.
  - destruct (rexec s0 c) as [s1| |] eqn:K; [|discriminate..]. rewrite (IH _ E). cbn [fold_left]. f_equal.
    destruct c as [l| | |r k|f]; cbn in K; try (injection K as <-; reflexivity).
    unfold Reader_Model.getNextData in K. destruct (move _ s0).
    + injection K as <-. reflexivity.
    + destruct (vget _ _); try discriminate. cbn [bind] in K. destruct (count_sel _ _ _); try discriminate. cbn [bind] in K.
      destruct (fill_sel _ _ _ _); try discriminate. cbn [bind] in K. injection K as <-. reflexivity.
    + injection K as <-. reflexivity.
Qed.
Theorem reader_keeps_outputs s c : match c with RNext _ _ => False | _ => True end ->
  exists s', rexec s c = Ok s' /\ r_vec _ s' = r_vec _ s /\ r_mat _ s' = r_mat _ s.
Proof. destruct c; try easy; intros _; eexists; (split; [reflexivity|split; reflexivity]). Qed.
(** Reading the next line does not touch the matrix, nor the lines that are loaded. *)
Theorem reader_next_keeps s f s' : rexec s (RNext _ f) = Ok s' -> r_mat _ s' = r_mat _ s /\ r_data _ s' = r_data _ s.
Proof.
  cbn. unfold Reader_Model.getNextData. destruct (move _ s) as [| |n].
  all: try (intros [= <-]; split; reflexivity).
  all: try (destruct (vget _ _); try discriminate; cbn [bind]; destruct (count_sel _ _ _); try discriminate; cbn [bind];
    destruct (fill_sel _ _ _ _); try discriminate; cbn [bind]; intros [= <-]; split; reflexivity).
Qed.
End ReaderProps.

Definition ex_numbers (l : list nat) : list nat := l.
Example reader_example :
  exists s, ofold (rexec nat nat ex_numbers 0)
    [RLoad _ [[1; 2; 3]; []; [4; 5; 6]]; RNext _ (mkFlags [true; false] true); RNext _ (of_bool true); RNext _ (of_bool true);
     RRewind _; RNext _ (mkFlags [false; true] false)] (r_new nat) = Ok s /\ r_vec _ s = [2] /\
  outputs 0 s [of_bool true; of_bool false] = Ok [[4; 5; 6]; [4; 5; 6]].
Proof. eexists. split; [vm_compute; reflexivity|]. split; vm_compute; reflexivity. Qed.

Print Assumptions next_selects.
Print Assumptions long_line_refuted.
Print Assumptions reader_step.
Print Assumptions reader_replays_partial.
Print Assumptions rewind_replays_all.
Print Assumptions rows_loaded.
Print Assumptions load_after_end_refuted.
Print Assumptions matrix_row_major.
Print Assumptions matrix_stale_refuted.
Print Assumptions matrix_negative_refuted.
Print Assumptions reader_size.
Print Assumptions reader_keeps_outputs.
Print Assumptions reader_next_keeps.
