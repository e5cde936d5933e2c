From Coq Require Import String Ascii List Arith Lia ZArith Bool.
From Verif Require Import Base Flags_Model Bound_Model Task_Model.
Import ListNotations.

Section P.
Context {num : Type} (zero g : num) (opp : num -> num) (add sub mul div : num -> num -> num).

Lemma grow_some need (e : list num) fuel :
  1 <= length e -> need <= length e * 2 ^ fuel ->
  exists e', grow num zero fuel need e = Some e' /\ need <= length e' /\ length e <= length e' /\
    (need <= length e -> e' = e) /\ (length e < need -> e' = repeat zero (length e')).
Proof.
  revert e; induction fuel as [|f IH]; intros e H1 H2; cbn [grow].
  - rewrite Nat.pow_0_r in H2. destruct (Nat.ltb_spec (length e) need); [lia|].
    exists e. repeat split; auto; lia.
  - destruct (Nat.ltb_spec (length e) need).
    + destruct (IH (repeat zero (2 * length e))) as (e' & E & H3 & H4 & H5 & H6).
      * rewrite repeat_length. lia.
      * rewrite repeat_length. rewrite Nat.pow_succ_r' in H2. lia.
      * rewrite repeat_length in *. exists e'. repeat split; auto; try lia.
        intros _. destruct (Nat.le_gt_cases need (2 * length e)).
        -- rewrite (H5 H0). rewrite repeat_length. reflexivity.
        -- apply H6. lia.
    + exists e. repeat split; auto; lia.
Qed.

Lemma skipn_skipn {A} a b (l : list A) : skipn a (skipn b l) = skipn (a + b) l.
Proof.
  revert b l; induction b as [|b IH]; intros l.
  - rewrite Nat.add_0_r. reflexivity.
  - rewrite Nat.add_succ_r. destruct l as [|x l]; [rewrite !skipn_nil; reflexivity|]. simpl. apply IH.
Qed.

Lemma seq_from a n : seq a n = map (fun i => a + i) (seq 0 n).
Proof.
  revert a; induction n as [|n IH]; intros a; simpl; auto.
  rewrite Nat.add_0_r. f_equal. rewrite (IH (S a)), (IH 1), map_map.
  apply map_ext. intros i. lia.
Qed.

Lemma pow2_ge n : n <= 2 ^ n.
Proof. apply Nat.lt_le_incl, Nat.pow_gt_lin_r. lia. Qed.

Lemma write_at_ok p : forall cursor (e : list num),
  cursor + length p <= length e ->
  write_at num cursor p e = Ok (firstn cursor e ++ p ++ skipn (cursor + length p) e).
Proof.
  induction p as [|x p IH]; intros cursor e H; cbn [write_at].
  - rewrite Nat.add_0_r. simpl. rewrite firstn_skipn. reflexivity.
  - simpl in H. unfold vset. destruct (Nat.ltb_spec cursor (length e)); [|lia].
    cbn [bind]. rewrite IH by (rewrite upd_length; lia). f_equal.
    assert (Hu : upd e cursor x = firstn cursor e ++ x :: skipn (S cursor) e).
    { clear - H0. revert cursor H0. induction e as [|a e IH]; intros [|c] H0; simpl in *; try lia; auto.
      f_equal. apply IH. lia. }
    rewrite Hu. rewrite firstn_app, skipn_app, firstn_length.
    replace (Nat.min cursor (length e)) with cursor by lia.
    replace (S cursor - cursor) with 1 by lia.
    rewrite firstn_firstn. replace (Nat.min (S cursor) cursor) with cursor by lia.
    rewrite (skipn_all2 (firstn cursor e)) by (rewrite firstn_length; lia).
    replace (S cursor + length p - cursor) with (S (length p)) by lia.
    cbn [firstn app length].
    change (skipn (S (length p)) (x :: skipn (S cursor) e)) with (skipn (length p) (skipn (S cursor) e)).
    rewrite skipn_skipn.
    replace (length p + S cursor) with (cursor + S (length p)) by lia.
    rewrite <- app_assoc. reflexivity.
Qed.

Definition total (l : list (list num)) : nat := length (concat l).

Lemma error_step_ok cursor e p :
  1 <= length e -> cursor <= length e ->
  exists e', error_step num zero (cursor, e) p = Ok (cursor + length p, e') /\
    length e <= length e' /\ cursor + length p <= length e' /\
    (cursor + length p <= length e -> length e' = length e) /\
    firstn (cursor + length p) e' =
      (if cursor + length p <=? length e then firstn cursor e else repeat zero cursor) ++ p.
Proof.
  intros H1 Hc. unfold error_step.
  destruct (grow_some (cursor + length p) e (cursor + length p) H1) as (e1 & E & H3 & H4 & H5 & H6).
  { pose proof (pow2_ge (cursor + length p)). nia. }
  rewrite E. rewrite write_at_ok by exact H3. cbn [bind]. eexists; split; [reflexivity|].
  assert (Hlen : length (firstn cursor e1 ++ p ++ skipn (cursor + length p) e1) = length e1).
  { rewrite !app_length, firstn_length, skipn_length. lia. }
  repeat split; try lia.
  { intros Hfit. rewrite Hlen, (H5 Hfit). reflexivity. }
  rewrite app_assoc, firstn_app.
  assert (HL : length (firstn cursor e1 ++ p) = cursor + length p).
  { rewrite app_length, firstn_length. lia. }
  rewrite HL, Nat.sub_diag, firstn_O, app_nil_r.
  rewrite firstn_all2 by lia. f_equal.
  destruct (Nat.leb_spec (cursor + length p) (length e)).
  - rewrite H5 by lia. reflexivity.
  - rewrite H6 by lia.
    replace (length e1) with (cursor + (length e1 - cursor)) by lia.
    rewrite repeat_app, firstn_app, repeat_length, Nat.sub_diag, firstn_O, app_nil_r.
    apply firstn_all2. rewrite repeat_length. lia.
Qed.

Definition einv (cap : nat) (done : list (list num)) (st : nat * list num) : Prop :=
  let '(cursor, e) := st in
  cursor = total done /\ cursor <= length e /\ 1 <= length e /\
  (total done <= cap -> length e = cap) /\
  exists pre post, done = pre ++ post /\
    firstn cursor e = repeat zero (total pre) ++ concat post /\
    (total done <= cap -> pre = []) /\ (done <> [] -> post <> []).

Lemma total_app a b : total (a ++ b) = total a + total b.
Proof. unfold total. rewrite concat_app, app_length. reflexivity. Qed.
Lemma total_one p : total [p] = length p.
Proof. unfold total. simpl. rewrite app_nil_r. reflexivity. Qed.

Lemma error_fold cap fs : forall done st, einv cap done st ->
  exists st', ofold (error_step num zero) fs st = Ok st' /\ einv cap (done ++ fs) st'.
Proof.
  induction fs as [|p fs IH]; intros done [cursor e] Hinv.
  - exists (cursor, e). rewrite app_nil_r. auto.
  - destruct Hinv as (Hc & Hle & H1 & Hcap & pre & post & Hd & Hf & Hz & Hpn).
    destruct (error_step_ok cursor e p H1 Hle) as (e1 & E1 & L1 & L2 & L3 & F1).
    cbn [ofold]. rewrite E1. cbn [bind].
    replace (done ++ p :: fs) with ((done ++ [p]) ++ fs) by (rewrite <- app_assoc; reflexivity).
    apply IH. cbn [einv]. rewrite total_app, total_one.
    repeat split; try lia.
    rewrite F1.
    destruct (Nat.leb_spec (cursor + length p) (length e)) as [Hfit|Hno].
    + exists pre, (post ++ [p]). split; [rewrite Hd, app_assoc; reflexivity|].
      split; [|split; [intros; apply Hz; lia | intros _; destruct post; discriminate]].
      rewrite Hf, concat_app, <- app_assoc. simpl. rewrite app_nil_r. reflexivity.
    + exists done, [p]. split; [reflexivity|]. split.
      * simpl. rewrite app_nil_r, <- Hc. reflexivity.
      * split; [intros Ht; assert (length e = cap) by (apply Hcap; lia); lia | discriminate].
Qed.

Lemma computeError_shape buffer fs :
  fs <> [] ->
  exists pre post, fs = pre ++ post /\
    computeError num zero g buffer fs = Ok (repeat zero (total pre) ++ concat post) /\
    (total fs <= Nat.max 1 (length buffer) -> pre = []) /\ post <> [].
Proof.
  intros Hne. set (cap := Nat.max 1 (length buffer)).
  set (e0 := if length buffer =? 0 then [zero] else buffer).
  assert (HL : length e0 = cap).
  { unfold e0, cap. destruct (Nat.eqb_spec (length buffer) 0); cbn [length]; lia. }
  assert (H0 : einv cap [] (0, e0)).
  { cbn [einv]. unfold total. cbn [concat length]. unfold cap in *. repeat split; auto; try lia.
    exists [], []. repeat split; auto. }
  destruct (error_fold cap fs [] (0, e0) H0) as ([cursor e'] & E & Hinv).
  simpl app in Hinv. destruct Hinv as (Hc & Hle & _ & _ & pre & post & Hs & Hf & Hz & Hpn).
  exists pre, post. repeat split; auto.
  unfold computeError. destruct fs as [|p fs]; [congruence|]. fold e0. rewrite E. cbn [bind].
  f_equal. rewrite <- Hf. unfold vresize.
  replace (cursor - length e') with 0 by lia. simpl. apply app_nil_r.
Qed.

(** *** Derivative *)
Lemma dot_fold ds : forall cursor (r : list num),
  cursor + total ds <= length r ->
  exists r', ofold (dot_step num) ds (cursor, r) = Ok (cursor + total ds, r') /\
   r' = firstn cursor r ++ concat ds ++ skipn (cursor + total ds) r.
Proof.
  induction ds as [|d ds IH]; intros cursor r H.
  - exists r. unfold total. simpl. rewrite Nat.add_0_r, firstn_skipn. auto.
  - change (d :: ds) with ([d] ++ ds) in *. rewrite total_app, total_one in *.
    cbn [app ofold dot_step].
    destruct (Nat.ltb_spec (length r) (cursor + length d)); [lia|].
    rewrite write_at_ok by lia. cbn [bind].
    set (r1 := firstn cursor r ++ d ++ skipn (cursor + length d) r).
    assert (HL : length r1 = length r).
    { unfold r1. rewrite !app_length, firstn_length, skipn_length. lia. }
    destruct (IH (cursor + length d) r1 ltac:(lia)) as (r' & E & Hr').
    exists r'. rewrite E, Nat.add_assoc. split; [reflexivity|].
    rewrite Hr'. unfold r1.
    assert (H2 : length (firstn cursor r ++ d) = cursor + length d).
    { rewrite app_length, firstn_length. lia. }
    rewrite (app_assoc (firstn cursor r) d).
    rewrite firstn_app, H2, Nat.sub_diag, firstn_O, app_nil_r, (firstn_all2 (firstn cursor r ++ d)) by lia.
    rewrite skipn_app, H2.
    rewrite (skipn_all2 (firstn cursor r ++ d)) by lia.
    replace (cursor + length d + total ds - (cursor + length d)) with (total ds) by lia.
    rewrite skipn_skipn. simpl. rewrite <- !app_assoc. simpl.
    replace (total ds + (cursor + length d)) with (cursor + length d + total ds) by lia. reflexivity.
Qed.

Lemma dot_fold_ub ds : forall cursor (r : list num),
  cursor <= length r -> length r < cursor + total ds -> ofold (dot_step num) ds (cursor, r) = UB.
Proof.
  induction ds as [|d ds IH]; intros cursor r Hc H.
  - unfold total in H; simpl in H. lia.
  - change (d :: ds) with ([d] ++ ds) in *. rewrite total_app, total_one in *.
    cbn [app ofold dot_step].
    destruct (Nat.ltb_spec (length r) (cursor + length d)); [reflexivity|].
    rewrite write_at_ok by lia. cbn [bind]. apply IH.
    + rewrite !app_length, firstn_length, skipn_length. lia.
    + rewrite !app_length, firstn_length, skipn_length. lia.
Qed.

(** *** Reference *)
Lemma minus_all_ok (vs de : list num) k :
  length vs <= length de ->
  minus_all num zero sub (map (mb_single zero) vs) de k =
  Ok (map (mb_single zero) (map2 (fun v d => sub v (k d)) vs de)).
Proof.
  revert de; induction vs as [|v vs IH]; intros [|d de] H; simpl in *; auto; try lia.
  rewrite IH by lia. reflexivity.
Qed.

(** *** Jacobian *)
Lemma jgrow_some fuel : forall need c dimJ (J : mat num),
  1 <= dimJ -> need < dimJ * 2 ^ fuel ->
  exists d' J', jgrow num g fuel need c dimJ J = Some (d', J') /\ need < d' /\ dimJ <= d' /\
    (dimJ <= need -> rows J' = d' /\ cols J' = c /\
       (forall i j, i < rows J -> i < dimJ -> j < cols J -> j < c -> coef J' i j = coef J i j)) /\
    (need < dimJ -> d' = dimJ /\ J' = J).
Proof.
  induction fuel as [|f IH]; intros need c dimJ J H1 H2; cbn [jgrow].
  - rewrite Nat.pow_0_r in H2. destruct (Nat.leb_spec dimJ need); [lia|].
    exists dimJ, J. repeat split; auto; lia.
  - destruct (Nat.leb_spec dimJ need).
    + destruct (IH need c (2 * dimJ) (mcresize num g J (2 * dimJ) c)) as (d' & J' & E & H3 & H4 & H5 & H6).
      * lia.
      * rewrite Nat.pow_succ_r' in H2. lia.
      * exists d', J'. split; [exact E|]. repeat split; try lia.
        -- destruct (Nat.le_gt_cases (2 * dimJ) need) as [Hd|Hd].
           ++ apply H5; auto.
           ++ destruct (H6 Hd) as [-> ->]. reflexivity.
        -- destruct (Nat.le_gt_cases (2 * dimJ) need) as [Hd|Hd].
           ++ apply H5; auto.
           ++ destruct (H6 Hd) as [-> ->]. reflexivity.
        -- intros i j Hi Hi' Hj Hj'.
           assert (Hm : coef (mcresize num g J (2 * dimJ) c) i j = coef J i j).
           { cbn [mcresize coef]. destruct (Nat.ltb_spec i (rows J)), (Nat.ltb_spec j (cols J)); simpl; auto; lia. }
           destruct (Nat.le_gt_cases (2 * dimJ) need) as [Hd|Hd].
           ++ rewrite <- Hm. apply H5; auto; cbn; lia.
           ++ destruct (H6 Hd) as [-> ->]. exact Hm.
    + exists dimJ, J. repeat split; auto; lia.
Qed.

Lemma mset_ok (m : mat num) i j x : i < rows m -> j < cols m ->
  mset num m i j x = Ok (mkMat (rows m) (cols m)
          (fun i' j' => if (i' =? i) && (j' =? j) then x else coef m i' j')).
Proof.
  intros Hi Hj. unfold mset. destruct (Nat.ltb_spec i (rows m)), (Nat.ltb_spec j (cols m)); auto; lia.
Qed.

Lemma jwrite_ok cursor (P J : mat num) c :
  cursor + rows P <= rows J -> c <= cols J ->
  exists J', jwrite num cursor P c J = Ok J' /\ rows J' = rows J /\ cols J' = cols J /\
    forall i j, coef J' i j =
      if (cursor <=? i) && (i <? cursor + rows P) && (j <? c) then coef P (i - cursor) j else coef J i j.
Proof.
  intros Hr Hc. unfold jwrite.
  destruct (ofor_range_ind (S := mat num)
    (fun n J' => rows J' = rows J /\ cols J' = cols J /\
      forall i j, coef J' i j =
       if (cursor <=? i) && (i <? cursor + rows P) && (j <? n) then coef P (i - cursor) j else coef J i j)
    0 c (fun kc J => ofor_range 0 (rows P) (fun k J => mset num J (cursor + k) kc (coef P k kc)) J) J)
    as (J' & E & H); try lia.
  - repeat split; auto. intros i j. rewrite andb_false_r. reflexivity.
  - intros kc J1 Hk (HR & HC & HE).
    destruct (ofor_range_ind (S := mat num)
      (fun n J' => rows J' = rows J /\ cols J' = cols J /\
        forall i j, coef J' i j =
          if (cursor <=? i) && (i <? cursor + n) && (j =? kc) then coef P (i - cursor) j else coef J1 i j)
      0 (rows P) (fun k J => mset num J (cursor + k) kc (coef P k kc)) J1) as (J2 & E2 & HR2 & HC2 & HE2); try lia.
    + repeat split; auto. intros i j.
      destruct (Nat.leb_spec cursor i), (Nat.ltb_spec i (cursor + 0)); simpl; auto; lia.
    + intros k J3 Hk3 (HR3 & HC3 & HE3).
      rewrite mset_ok by lia. eexists; split; [reflexivity|]. cbn [rows cols coef].
      repeat split; auto. intros i j. rewrite HE3.
      destruct (Nat.leb_spec cursor i), (Nat.ltb_spec i (cursor + k)), (Nat.ltb_spec i (cursor + S k)),
        (Nat.eqb_spec j kc), (Nat.eqb_spec i (cursor + k)); simpl; auto; try lia.
      subst. replace (cursor + k - cursor) with k by lia. reflexivity.
    + exists J2. split; [exact E2|]. repeat split; auto.
      intros i j. rewrite HE2, HE.
      destruct (Nat.leb_spec cursor i), (Nat.ltb_spec i (cursor + rows P)), (Nat.ltb_spec j kc),
        (Nat.ltb_spec j (S kc)), (Nat.eqb_spec j kc); simpl; auto; lia.
  - exists J'. split; [exact E|]. exact H.
Qed.

Lemma firstn_rows (J : mat num) n : n <= rows J ->
  firstn n (rows_of J) = map (fun i => map (fun j => coef J i j) (seq 0 (cols J))) (seq 0 n).
Proof.
  intros H. unfold rows_of. rewrite firstn_map.
  replace (rows J) with (n + (rows J - n)) by lia.
  rewrite seq_app, firstn_app, seq_length, Nat.sub_diag, firstn_O, app_nil_r.
  rewrite firstn_all2; auto. rewrite seq_length. lia.
Qed.

Lemma rows_mcresize (J : mat num) n : n <= rows J ->
  rows_of (mcresize num g J n (cols J)) = firstn n (rows_of J).
Proof.
  intros H. rewrite firstn_rows by exact H. unfold rows_of. cbn [rows cols mcresize].
  apply map_ext_in. intros i Hi. apply in_seq in Hi.
  apply map_ext_in. intros j Hj. apply in_seq in Hj. cbn [mcresize coef].
  destruct (Nat.ltb_spec i (rows J)), (Nat.ltb_spec j (cols J)); cbn; auto; lia.
Qed.

Definition trows (l : list (mat num)) : nat := fold_right (fun m n => rows m + n) 0 l.

Lemma trows_app a b : trows (a ++ b) = trows a + trows b.
Proof. induction a; simpl; lia. Qed.

(** Invariant of the loop; [c] is the number of columns of every feature. *)
Definition jinv (c : nat) (done : list (mat num)) (st : nat * nat * nat * mat num) : Prop :=
  let '(cursor, dimJ, nbc, J) := st in
  cursor = trows done /\ 1 <= dimJ /\
  ((cursor = 0 /\ dimJ = 1 /\ (nbc = 0 \/ nbc = c)) \/
   (nbc = c /\ rows J = dimJ /\ cols J = c /\ cursor <= dimJ /\
    firstn cursor (rows_of J) = concat (map rows_of done))).

Lemma rows_of_length (m : mat num) : length (rows_of m) = rows m.
Proof. unfold rows_of. rewrite map_length, seq_length. reflexivity. Qed.

Lemma trows_zero l : trows l = 0 -> concat (map rows_of l) = [].
Proof.
  induction l as [|m l IH]; simpl; auto. intros H. rewrite IH by lia.
  rewrite app_nil_r. unfold rows_of. replace (rows m) with 0 by lia. reflexivity.
Qed.

Lemma jac_step_ok c done st P :
  0 < c -> cols P = c -> jinv c done st ->
  exists st', jac_step num g st P = Ok st' /\ jinv c (done ++ [P]) st' /\ snd (fst st') = c.
Proof.
  intros Hpos HP Hinv. destruct st as [[[cursor dimJ] nbc] J].
  destruct Hinv as (Hcur & Hd & Hcase).
  assert (Hcols : exists J1,
     (if nbc =? 0 then Ok (cols P, mresize num g J (cols P) dimJ)
      else if cols P =? nbc then Ok (nbc, J) else Throw "NON_ADEQUATE_FEATURES") = Ok (c, J1) /\
     ((cursor = 0 /\ dimJ = 1) \/
      (rows J1 = dimJ /\ cols J1 = c /\ cursor <= dimJ /\
       firstn cursor (rows_of J1) = concat (map rows_of done)))).
  { destruct (Nat.eqb_spec nbc 0) as [->|Hn].
    - eexists. rewrite HP. split; [reflexivity|].
      destruct Hcase as [(A & B & _)|(A & _)]; [left; auto | lia].
    - destruct Hcase as [(A & B & [C|C])|(A & B & C & D & E)]; try congruence.
      + rewrite HP, C, Nat.eqb_refl. eexists; split; [reflexivity|]. left; auto.
      + rewrite HP, A, Nat.eqb_refl. eexists; split; [reflexivity|]. right; auto. }
  destruct Hcols as (J1 & Ecols & HJ1). clear Hcase.
  unfold jac_step. rewrite Ecols. cbn [bind].
  assert (Hfuel : cursor + rows P < dimJ * 2 ^ S (cursor + rows P)).
  { pose proof (Nat.pow_gt_lin_r 2 (S (cursor + rows P)) ltac:(lia)). nia. }
  destruct (jgrow_some _ (cursor + rows P) c dimJ J1 Hd Hfuel) as (d' & J2 & E & G1 & G2 & G3 & G4).
  rewrite E.
  destruct (Nat.eq_dec (cursor + rows P) 0) as [Hz|Hnz].
  { (* nothing written *)
    assert (rows P = 0) by lia. unfold jwrite, ofor_range. rewrite H. cbn [Nat.sub seq ofold].
    assert (Hid : forall (l : list nat) (x : mat num), ofold (fun s (_ : nat) => Ok s) l x = Ok x).
    { intros l; induction l; simpl; auto. }
    rewrite Hid. cbn [bind]. eexists; split; [reflexivity|]. split; [|reflexivity].
    cbn [jinv]. rewrite trows_app. cbn [trows fold_right].
    split; [lia|]. split; [lia|].
    destruct (Nat.le_gt_cases dimJ (cursor + rows P)); [lia|].
    destruct (G4 H0) as [-> ->].
    destruct HJ1 as [[A B]|(A & B & C & D)]; [left; lia|right].
    repeat split; auto; try lia.
    replace (cursor + 0) with 0 by lia. rewrite firstn_O.
    symmetry. apply trows_zero. rewrite trows_app. cbn. lia. }
  assert (Hshape : rows J2 = d' /\ cols J2 = c /\ firstn cursor (rows_of J2) = concat (map rows_of done)).
  { destruct (Nat.le_gt_cases dimJ (cursor + rows P)) as [Hg|Hg].
    - destruct (G3 Hg) as (R1 & R2 & R3). split; [auto|]. split; [auto|].
      destruct HJ1 as [[A B]|(A & B & C & D)].
      + rewrite A, firstn_O. symmetry. apply trows_zero. lia.
      + rewrite <- D. rewrite !firstn_rows by lia. rewrite R2, B.
        apply map_ext_in. intros i Hi. apply in_seq in Hi.
        apply map_ext_in. intros j Hj. apply in_seq in Hj. apply R3; lia.
    - destruct (G4 Hg) as [-> ->].
      destruct HJ1 as [[A B]|(A & B & C & D)]; [lia|]. auto. }
  destruct Hshape as (S1 & S2 & S3).
  destruct (jwrite_ok cursor P J2 c ltac:(lia) ltac:(lia)) as (J3 & E3 & T1 & T2 & T3).
  rewrite E3. cbn [bind]. eexists; split; [reflexivity|]. split; [|reflexivity].
  cbn [jinv]. rewrite trows_app. cbn [trows fold_right].
  split; [lia|]. split; [lia|]. right. repeat split; auto; try lia.
  rewrite map_app, concat_app. cbn [map concat]. rewrite app_nil_r, <- S3.
  rewrite !firstn_rows by lia. rewrite T2, seq_app, map_app. f_equal.
  - apply map_ext_in. intros i Hi. apply in_seq in Hi.
    apply map_ext_in. intros j Hj. apply in_seq in Hj. rewrite T3.
    destruct (Nat.leb_spec cursor i); [lia|]. reflexivity.
  - unfold rows_of. rewrite S2, HP. simpl.
    replace (seq cursor (rows P)) with (map (fun i => cursor + i) (seq 0 (rows P))).
    2:{ symmetry. apply seq_from. }
    rewrite map_map.
    apply map_ext_in. intros i Hi. apply in_seq in Hi.
    apply map_ext_in. intros j Hj. apply in_seq in Hj. rewrite T3.
    destruct (Nat.leb_spec cursor (cursor + i)), (Nat.ltb_spec (cursor + i) (cursor + rows P)),
      (Nat.ltb_spec j c); try lia. simpl. f_equal. lia.
Qed.

Lemma jac_fold c fs : 0 < c -> forall done st, jinv c done st -> (forall P, In P fs -> cols P = c) ->
  exists st', ofold (jac_step num g) fs st = Ok st' /\ jinv c (done ++ fs) st' /\
     (fs <> [] -> snd (fst st') = c).
Proof.
  intros Hpos. induction fs as [|p fs IH]; intros done st Hinv Hall.
  - exists st. rewrite app_nil_r. repeat split; auto. congruence.
  - destruct (jac_step_ok c done st p Hpos (Hall p (or_introl eq_refl)) Hinv) as (st1 & E1 & H1 & N1).
    destruct (IH (done ++ [p]) st1 H1 (fun q Hq => Hall q (or_intror Hq))) as (st2 & E2 & H2 & N2).
    exists st2. cbn [ofold]. rewrite E1. cbn [bind]. split; [exact E2|].
    rewrite <- app_assoc in H2. split; [exact H2|].
    intros _. destruct fs as [|q fs]; [|apply N2; congruence].
    cbn [ofold] in E2. inversion E2 as [E3]. rewrite <- E3. exact N1.
Qed.

Lemma computeJacobian_ok buffer fs c :
  fs <> [] -> 0 < c -> (forall P, In P fs -> cols P = c) ->
  (rows buffer = 0 /\ cols buffer = 0 \/ cols buffer = c) ->
  exists J, computeJacobian num g buffer fs = Ok J /\ cols J = c /\
    rows_of J = concat (map rows_of fs).
Proof.
  intros Hne Hpos Hall Hbuf.
  set (st0 := let '(dimJ, J) := if rows buffer =? 0 then (1, mresize num g buffer 1 (cols buffer))
                        else (rows buffer, buffer) in (0, dimJ, cols buffer, J)).
  assert (H0 : jinv c [] st0).
  { unfold st0. destruct (Nat.eqb_spec (rows buffer) 0).
    - cbn [jinv]. repeat split; auto. left. repeat split; auto. lia.
    - cbn [jinv]. repeat split; auto; try lia. right. repeat split; auto; lia. }
  destruct (jac_fold c fs Hpos [] st0 H0 Hall) as ([[[cursor dimJ] nbc] J] & E & Hinv & Hn).
  specialize (Hn Hne). simpl in Hn. subst nbc. simpl app in Hinv.
  unfold computeJacobian. destruct fs as [|p fs]; [congruence|].
  exists (mcresize num g J cursor c).
  replace (ofold (jac_step num g) (p :: fs)) with (ofold (jac_step num g) (p :: fs)) by reflexivity.
  revert E. unfold st0. destruct (rows buffer =? 0); intros E; rewrite E; cbn [bind];
    (split; [reflexivity|]; split; [reflexivity|]);
    destruct Hinv as (A & B & [(C & D & _)|(C & D & F & G & H)]).
  - rewrite C. rewrite trows_zero by lia. reflexivity.
  - rewrite <- H, <- F. rewrite rows_mcresize by lia. reflexivity.
  - rewrite C. rewrite trows_zero by lia. reflexivity.
  - rewrite <- H, <- F. rewrite rows_mcresize by lia. reflexivity.
Qed.

Lemma jac_step_mixed st P :
  snd (fst st) <> 0 -> cols P <> snd (fst st) ->
  jac_step num g st P = Throw "NON_ADEQUATE_FEATURES".
Proof.
  destruct st as [[[cursor dimJ] nbc] J]. simpl. intros H1 H2.
  destruct (Nat.eqb_spec nbc 0); [congruence|].
  destruct (Nat.eqb_spec (cols P) nbc); [congruence|]. reflexivity.
Qed.

Lemma computeJacobian_mixed buffer pre P post c :
  0 < c -> (forall Q, In Q pre -> cols Q = c) -> cols P <> c ->
  (pre <> [] \/ cols buffer = c) ->
  (rows buffer = 0 /\ cols buffer = 0 \/ cols buffer = c) ->
  computeJacobian num g buffer (pre ++ P :: post) = Throw "NON_ADEQUATE_FEATURES".
Proof.
  intros Hpos Hall HP Hpre Hbuf.
  set (st0 := let '(dimJ, J) := if rows buffer =? 0 then (1, mresize num g buffer 1 (cols buffer))
                        else (rows buffer, buffer) in (0, dimJ, cols buffer, J)).
  assert (H0 : jinv c [] st0).
  { unfold st0. destruct (Nat.eqb_spec (rows buffer) 0).
    - cbn [jinv]. repeat split; auto. left. repeat split; auto. lia.
    - cbn [jinv]. repeat split; auto; try lia. right. repeat split; auto; lia. }
  destruct (jac_fold c pre Hpos [] st0 H0 Hall) as (st & E & Hinv & Hn).
  assert (Hc : snd (fst st) = c).
  { destruct pre as [|q pre]; [|apply Hn; congruence].
    simpl in E. inversion E; subst st. destruct Hpre as [Hp|Hp]; [congruence|].
    unfold st0. destruct (rows buffer =? 0); exact Hp. }
  assert (E2 : ofold (jac_step num g) (pre ++ P :: post) st0 = Throw "NON_ADEQUATE_FEATURES").
  { rewrite ofold_app, E. cbn [bind ofold]. rewrite jac_step_mixed by lia. reflexivity. }
  unfold computeJacobian.
  destruct (pre ++ P :: post) eqn:El; [destruct pre; discriminate|].
  revert E2. unfold st0. destruct (rows buffer =? 0); intros E2; rewrite E2; reflexivity.
Qed.
End P.
