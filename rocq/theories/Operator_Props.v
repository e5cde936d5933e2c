(** C48: selection and stacking; C77: comparisons and binary sums; C78: temporal
    convolution. *)
From Coq Require Import String Ascii List Arith Lia ZArith Bool Reals Lra.
From Verif Require Import Base Variadic_Model Operator_Model.
Import ListNotations.
Local Open Scope nat_scope.
Local Open Scope list_scope.

(** The components m, .., M-1 of a vector. *)
Definition range {num} (v : list num) (m M : Z) : list num :=
  firstn (Z.to_nat (M - m)) (skipn (Z.to_nat m) v).

(** A range inside the vector. *)
Definition inside {num} (v : list num) (m M : Z) : Prop :=
  (0 <= m <= M)%Z /\ (M <= Z.of_nat (length v))%Z.

Lemma range_length {num} (v : list num) m M : inside v m M -> length (range v m M) = Z.to_nat (M - m).
Proof. unfold inside, range. intros H. rewrite firstn_length, skipn_length. lia. Qed.

(** A range is really made of these components. *)
Lemma nth_skipn' {A} (l : list A) n k d : nth k (skipn n l) d = nth (n + k) l d.
Proof.
  revert l; induction n; intros l; simpl; auto. destruct l; simpl; auto. destruct k; reflexivity.
Qed.

Lemma nth_firstn' {A} (l : list A) n k d : k < n -> nth k (firstn n l) d = nth k l d.
Proof.
  revert l k; induction n; intros l k H; [lia|]. destruct l; simpl; [destruct k; auto|].
  destruct k; auto. apply IHn. lia.
Qed.

Lemma range_nth {num} (v : list num) m M k d : (k < Z.to_nat (M - m)) ->
  nth k (range v m M) d = nth (Z.to_nat m + k) v d.
Proof. intros H. unfold range. rewrite nth_firstn' by exact H. apply nth_skipn'. Qed.

(* ------------------------------------------------------------------ *)
(** * C48: VectorSelecter *)

Inductive selcmd := SSet (m M : Z) | SAdd (m M : Z).
Definition selstep (s : selecter) (c : selcmd) : selecter :=
  match c with SSet m M => setBounds m M s | SAdd m M => addBounds m M s end.

(** The ranges selected: the last one set and those added since. *)
Definition ranges_step (l : list (Z * Z)) (c : selcmd) : list (Z * Z) :=
  match c with SSet m M => [(m, M)] | SAdd m M => l ++ [(m, M)] end.
Definition ranges (h : list selcmd) : list (Z * Z) := fold_left ranges_step h [].

Lemma selecter_state : forall h,
  let s := fold_left selstep h selecter0 in
  idxs s = map (fun r => (fst r, (snd r - fst r)%Z)) (ranges h)
  /\ ssize s = fold_right Z.add 0%Z (map (fun r => (snd r - fst r)%Z) (ranges h)).
Proof.
  assert (HS : forall l x, fold_right Z.add 0%Z (l ++ [x]) = (fold_right Z.add 0%Z l + x)%Z).
  { induction l; intros x; simpl; [lia|]. rewrite IHl. lia. }
  unfold ranges.
  induction h as [|c h IH] using rev_ind; [split; reflexivity|].
  rewrite !fold_left_app. cbn [fold_left]. destruct IH as (E1 & E2).
  destruct c as [m M | m M]; cbn [selstep ranges_step setBounds addBounds idxs ssize].
  - split; [reflexivity | simpl; lia].
  - rewrite E1, E2, !map_app. cbn [map fst snd]. rewrite HS. split; reflexivity.
Qed.

(** C48: the selection is the concatenation of the ranges, when they are inside. *)
Theorem selecter_output : forall num (junk : num) h v,
  (forall m M, In (m, M) (ranges h) -> inside v m M) ->
  selecterOp junk (fold_left selstep h selecter0) v
  = Ok (concat (map (fun r => range v (fst r) (snd r)) (ranges h))).
Proof.
  intros num junk h v. destruct (selecter_state h) as (E1 & E2).
  unfold selecterOp. rewrite E1, E2. generalize (ranges h). clear. intros l Hin.
  assert (HP : forall l, (forall m M, In (m, M) l -> inside v m M) ->
    (0 <= fold_right Z.add 0 (map (fun r : Z * Z => snd r - fst r) l))%Z
    /\ Z.to_nat (fold_right Z.add 0%Z (map (fun r : Z * Z => (snd r - fst r)%Z) l))
       = length (concat (map (fun r => range v (fst r) (snd r)) l))).
  { clear. induction l as [|[m M] l IH]; intros H; [simpl; lia|].
    destruct IH as (I1 & I2); [intros; apply H; right; auto|].
    pose proof (H m M (or_introl eq_refl)) as Hi.
    cbn [map fold_right concat fst snd]. rewrite app_length, range_length by exact Hi.
    unfold inside in Hi. split; [lia|]. rewrite <- I2. lia. }
  destruct (Z.ltb_spec (fold_right Z.add 0%Z (map (fun r : Z * Z => (snd r - fst r)%Z) l)) 0).
  { destruct (HP l Hin). lia. }
  assert (G : forall l (pre : list num) n,
    (forall m M, In (m, M) l -> inside v m M) ->
    n = length (concat (map (fun r => range v (fst r) (snd r)) l)) ->
    exists r, ofold (fun st x =>
        let '(r, res) := st in
        let* u := segment_of v (fst x) (snd x) in
        let* res' := assign_segment res r (snd x) u in
        Ok ((r + snd x)%Z, res'))
      (map (fun r => (fst r, (snd r - fst r)%Z)) l) (Z.of_nat (length pre), pre ++ repeat junk n)
    = Ok (r, pre ++ concat (map (fun r => range v (fst r) (snd r)) l))).
  { clear. induction l as [|[m M] l IH]; intros pre n H Hn.
    - simpl in Hn. subst n. eexists. reflexivity.
    - pose proof (H m M (or_introl eq_refl)) as Hi.
      pose proof (range_length v m M Hi) as HL.
      cbn [map concat fst snd] in Hn |- *. rewrite app_length in Hn.
      cbn [ofold fst snd].
      assert (E1 : segment_of v m (M - m) = Ok (range v m M)).
      { unfold segment_of, inside in *.
        destruct (Z.leb_spec 0 m); [|lia]. destruct (Z.leb_spec 0 (M - m)); [|lia].
        destruct (Z.leb_spec (m + (M - m)) (Z.of_nat (length v))); [reflexivity | lia]. }
      rewrite E1. cbn [bind].
      assert (E2 : assign_segment (pre ++ repeat junk n) (Z.of_nat (length pre)) (M - m) (range v m M)
                   = Ok (pre ++ range v m M ++ repeat junk (n - Z.to_nat (M - m)))).
      { unfold assign_segment, inside in *. rewrite app_length, repeat_length.
        destruct (Z.leb_spec 0 (Z.of_nat (length pre))); [|lia].
        destruct (Z.leb_spec 0 (M - m)); [|lia].
        destruct (Z.leb_spec (Z.of_nat (length pre) + (M - m)) (Z.of_nat (length pre + n))); [|lia].
        destruct (Z.eqb_spec (M - m) (Z.of_nat (length (range v m M)))); [|lia]. cbn [andb].
        rewrite Nat2Z.id. rewrite firstn_app, firstn_all, Nat.sub_diag. cbn [firstn].
        rewrite app_nil_r. do 3 f_equal.
        replace (Z.to_nat (Z.of_nat (length pre) + (M - m))) with (length pre + Z.to_nat (M - m)) by lia.
        rewrite skipn_app, skipn_all2 by lia. cbn [app].
        replace (length pre + Z.to_nat (M - m) - length pre) with (Z.to_nat (M - m)) by lia.
        generalize (Z.to_nat (M - m)) as k. clear. intros k. revert n.
        induction k; intros n; simpl; [rewrite Nat.sub_0_r; reflexivity|].
        destruct n; simpl; [reflexivity | apply IHk]. }
      rewrite E2. cbn [bind].
      destruct (IH (pre ++ range v m M) (n - Z.to_nat (M - m))) as (r & E).
      { intros; apply H; right; auto. }
      { lia. }
      rewrite app_length, HL in E.
      replace (Z.of_nat (length pre) + (M - m))%Z
        with (Z.of_nat (length pre + Z.to_nat (M - m))) by (unfold inside in Hi; lia).
      rewrite <- !app_assoc in E. rewrite E. eexists. reflexivity. }
  destruct (G l [] _ Hin (proj2 (HP l Hin))) as (r & E).
  simpl length in E. rewrite !app_nil_l in E. change (Z.of_nat 0) with 0%Z in E.
  rewrite E. reflexivity.
Qed.

(** Nothing checks a range that is not inside: the evaluation is undefined. *)
Theorem selecter_unchecked_refuted : forall num (junk : num) m M v,
  (0 <= m <= M)%Z -> (Z.of_nat (length v) < M)%Z ->
  selecterOp junk (selstep selecter0 (SSet m M)) v = UB.
Proof.
  intros num junk m M v H1 H2. unfold selecterOp. simpl.
  destruct (Z.ltb_spec (M - m) 0); [lia|]. unfold segment_of.
  destruct (Z.leb_spec (m + (M - m)) (Z.of_nat (length v))); [lia|].
  rewrite andb_false_r. reflexivity.
Qed.

Example selecter_example :
  selecterOp 0 (fold_left selstep [SSet 0 9; SSet 1 3; SAdd 4 5; SAdd 0 2] selecter0) [10; 11; 12; 13; 14]
  = Ok [11; 12; 14; 10; 11]
  /\ forall m M, In (m, M) (ranges [SSet 0 9; SSet 1 3; SAdd 4 5; SAdd 0 2]) ->
     inside [10; 11; 12; 13; 14] m M.
Proof.
  split; [reflexivity|]. intros m M [E | [E | [E | []]]]; inversion E; unfold inside; simpl; lia.
Qed.

(* ------------------------------------------------------------------ *)
(** * C48: VectorComponent, VectorStack, MatrixSelector *)

Theorem component_output : forall num (v : list num) i d, (0 <= i < Z.of_nat (length v))%Z ->
  componentOp (Some i) v = Ok (nth (Z.to_nat i) v d).
Proof.
  intros num v i d H. unfold componentOp, zget. destruct (Z.ltb_spec i 0); [lia|].
  apply vget_ok. lia.
Qed.

Lemma zrange_seq n : (0 <= n)%Z -> zrange 0 n = map Z.of_nat (seq 0 (Z.to_nat n)).
Proof. intros H. unfold zrange. rewrite Z.sub_0_r. apply map_ext. intros; lia. Qed.

Lemma fill_loop {num} (src : list num) off : forall n (pre tl : list num) k,
  (0 <= off)%Z -> k + n <= length tl ->
  (forall i, i < n -> Z.to_nat off + (k + i) < length src) ->
  ofold (fun res i => let* x := zget src (i + off) in zset res (Z.of_nat (length pre) + i) x)
        (map Z.of_nat (seq k n)) (pre ++ tl)
  = Ok (pre ++ firstn k tl ++ firstn n (skipn (Z.to_nat off + k) src) ++ skipn (k + n) tl).
Proof.
  induction n; intros pre tl k Ho Hk Hs; cbn [seq map ofold].
  - cbn [firstn]. rewrite app_nil_l, Nat.add_0_r, firstn_skipn. reflexivity.
  - assert (Hlt : Z.to_nat off + k < length src) by (specialize (Hs 0 ltac:(lia)); lia).
    destruct (nth_error src (Z.to_nat off + k)) as [x|] eqn:Ex.
    2:{ apply nth_error_None in Ex. lia. }
    unfold zget at 1. destruct (Z.ltb_spec (Z.of_nat k + off) 0); [lia|].
    replace (Z.to_nat (Z.of_nat k + off)) with (Z.to_nat off + k) by lia.
    unfold vget at 1. rewrite Ex. cbn [bind].
    unfold zset at 1. destruct (Z.ltb_spec (Z.of_nat (length pre) + Z.of_nat k) 0); [lia|].
    replace (Z.to_nat (Z.of_nat (length pre) + Z.of_nat k)) with (length pre + k) by lia.
    unfold vset. rewrite app_length. destruct (Nat.ltb_spec (length pre + k) (length pre + length tl)); [|lia].
    cbn [bind].
    assert (EU : upd (pre ++ tl) (length pre + k) x = pre ++ upd tl k x).
    { clear. induction pre; simpl; auto. f_equal. exact IHpre. }
    rewrite EU, IHn; [| exact Ho | rewrite upd_length; lia | ].
    2:{ intros i Hi. specialize (Hs (S i) ltac:(lia)). lia. }
    f_equal. f_equal.
    assert (E1 : firstn (S k) (upd tl k x) = firstn k tl ++ [x]).
    { assert (Hk2 : k < length tl) by lia. clear -Hk2. revert tl Hk2.
      induction k; intros [|t tl] H; simpl in *; try lia; auto.
      f_equal. apply IHk. lia. }
    assert (E2 : skipn (S k + n) (upd tl k x) = skipn (k + S n) tl).
    { replace (k + S n) with (S k + n) by lia. clear. revert k n.
      induction tl as [|t tl IH]; intros k n; [reflexivity|].
      destruct k; simpl; [reflexivity|]. apply (IH k n). }
    rewrite E1, E2, <- !app_assoc. f_equal.
    assert (E3 : skipn (Z.to_nat off + k) src = x :: skipn (S (Z.to_nat off + k)) src).
    { revert Ex. generalize (Z.to_nat off + k) as a. clear. intros a. revert src.
      induction a; intros [|s src] H; simpl in *; try discriminate; [congruence|].
      rewrite IHa by exact H. reflexivity. }
    rewrite E3. replace (Z.to_nat off + S k) with (S (Z.to_nat off + k)) by lia. reflexivity.
Qed.

(** C48: the two selected ranges, one after the other. *)
Theorem stack_output : forall num (junk : num) m1 M1 m2 M2 v1 v2,
  inside v1 m1 M1 -> inside v2 m2 M2 ->
  vectorStackOp junk m1 M1 m2 M2 v1 v2 = Ok (range v1 m1 M1 ++ range v2 m2 M2).
Proof.
  intros num junk m1 M1 m2 M2 v1 v2 H1 H2. unfold inside in *. unfold vectorStackOp. cbv zeta.
  destruct (Z.ltb_spec (M1 - m1 + (M2 - m2)) 0); [lia|].
  rewrite !zrange_seq by lia.
  pose proof (fill_loop v1 m1 (Z.to_nat (M1 - m1)) [] (repeat junk (Z.to_nat (M1 - m1 + (M2 - m2)))) 0
                ltac:(lia) ltac:(rewrite repeat_length; lia) ltac:(intros; lia)) as F1.
  simpl length in F1. simpl app in F1. change (Z.of_nat 0) with 0%Z in F1.
  rewrite Nat.add_0_r in F1. cbn [Z.add] in F1.
  rewrite F1. cbn [bind]. clear F1. cbn [firstn app Nat.add].
  pose proof (fill_loop v2 m2 (Z.to_nat (M2 - m2)) (range v1 m1 M1)
                (skipn (Z.to_nat (M1 - m1)) (repeat junk (Z.to_nat (M1 - m1 + (M2 - m2))))) 0
                ltac:(lia) ltac:(rewrite skipn_length, repeat_length; lia) ltac:(intros; lia)) as F2.
  rewrite range_length in F2 by (unfold inside; lia).
  rewrite Z2Nat.id in F2 by lia. rewrite Nat.add_0_r in F2.
  unfold range at 1 in F2. simpl in F2. rewrite F2. f_equal. unfold range.
  rewrite (skipn_all2 (n := Z.to_nat (M2 - m2)) (skipn _ (repeat _ _))).
  - rewrite app_nil_r. reflexivity.
  - rewrite skipn_length, repeat_length. lia.
Qed.

Example stack_example :
  vectorStackOp 0 1 3 0 1 [1; 2; 3] [7; 8] = Ok [2; 3; 7]
  /\ inside [1; 2; 3] 1 3 /\ inside [7; 8] 0 1.
Proof. split; [reflexivity|]. unfold inside; simpl; lia. Qed.

(** C48: the selected block of a matrix. *)
Theorem matrix_selector_output : forall num (junk : num) imin imax jmin jmax m,
  (0 <= imin <= imax)%Z -> (imax <= Z.of_nat (mrows m))%Z ->
  (0 <= jmin <= jmax)%Z -> (jmax <= Z.of_nat (mcols m))%Z ->
  exists r, matrixSelectorOp junk imin imax jmin jmax m = Ok r
    /\ mrows r = Z.to_nat (imax - imin) /\ mcols r = Z.to_nat (jmax - jmin)
    /\ forall i j, i < mrows r -> j < mcols r ->
       ment r i j = ment m (Z.to_nat imin + i) (Z.to_nat jmin + j).
Proof.
  intros num junk imin imax jmin jmax m Hi1 Hi2 Hj1 Hj2. unfold matrixSelectorOp.
  destruct (Z.ltb_spec (imax - imin) 0); [lia|]. destruct (Z.ltb_spec (jmax - jmin) 0); [lia|].
  cbn [orb].
  (* one row *)
  assert (ROW : forall n k i f, (0 <= i)%Z -> (Z.to_nat imin + Z.to_nat i < mrows m) ->
    Z.to_nat jmin + k + n <= mcols m ->
    exists f', ofold (fun f j => let* x := mat_get m (imin + i) j in
                 Ok (fset f (Z.to_nat (imin + i - imin)) (Z.to_nat (j - jmin)) x))
              (map (fun k => (jmin + Z.of_nat k)%Z) (seq k n)) f = Ok f'
      /\ (forall a b, a = Z.to_nat i -> k <= b < k + n -> f' a b = ment m (Z.to_nat imin + a) (Z.to_nat jmin + b))
      /\ (forall a b, a <> Z.to_nat i \/ b < k \/ k + n <= b -> f' a b = f a b)).
  { clear -Hi1 Hj1. induction n; intros k i f Hi Hr Hc; cbn [seq map ofold].
    - exists f. split; [reflexivity|]. split; [intros; lia | auto].
    - assert (EM : mat_get m (imin + i) (jmin + Z.of_nat k)
                   = Ok (ment m (Z.to_nat imin + Z.to_nat i) (Z.to_nat jmin + k))).
      { unfold mat_get. destruct (Z.leb_spec 0 (imin + i)); [|lia].
        destruct (Z.ltb_spec (imin + i) (Z.of_nat (mrows m))); [|lia].
        destruct (Z.leb_spec 0 (jmin + Z.of_nat k)); [|lia].
        destruct (Z.ltb_spec (jmin + Z.of_nat k) (Z.of_nat (mcols m))); [|lia]. cbn [andb].
        f_equal. f_equal; lia. }
      rewrite EM. cbn [bind].
      replace (Z.to_nat (imin + i - imin)) with (Z.to_nat i) by (f_equal; lia).
      replace (Z.to_nat (jmin + Z.of_nat k - jmin)) with k by lia.
      destruct (IHn (S k) i (fset f (Z.to_nat i) k
                  (ment m (Z.to_nat imin + Z.to_nat i) (Z.to_nat jmin + k))) Hi Hr ltac:(lia))
        as (f' & E & F1 & F2).
      replace (Z.to_nat (imin + i - imin)) with (Z.to_nat i) in E by (f_equal; lia).
      exists f'. split; [exact E|]. split.
      + intros a b Ha Hb. destruct (Nat.eq_dec b k) as [->|Hne].
        * rewrite F2 by lia. unfold fset. subst a. rewrite !Nat.eqb_refl. reflexivity.
        * apply F1; lia.
      + intros a b Hab. rewrite F2 by lia. unfold fset.
        destruct (Nat.eqb_spec a (Z.to_nat i)); destruct (Nat.eqb_spec b k); simpl; try reflexivity; lia. }
  assert (ROWS : forall n k f, Z.to_nat imin + k + n <= mrows m ->
    exists f', ofold (fun f i =>
        ofold (fun f j => let* x := mat_get m i j in
                          Ok (fset f (Z.to_nat (i - imin)) (Z.to_nat (j - jmin)) x))
              (zrange jmin jmax) f)
      (map (fun k => (imin + Z.of_nat k)%Z) (seq k n)) f = Ok f'
      /\ (forall a b, k <= a < k + n -> b < Z.to_nat (jmax - jmin) ->
          f' a b = ment m (Z.to_nat imin + a) (Z.to_nat jmin + b))
      /\ (forall a b, a < k -> f' a b = f a b)).
  { induction n; intros k f Hr; cbn [seq map ofold].
    - exists f. split; [reflexivity|]. split; [intros; lia | auto].
    - unfold zrange at 1.
      destruct (ROW (Z.to_nat (jmax - jmin)) 0 (Z.of_nat k) f ltac:(lia) ltac:(lia) ltac:(lia))
        as (f1 & E1 & G1 & G2).
      rewrite E1. cbn [bind].
      destruct (IHn (S k) f1 ltac:(lia)) as (f' & E & F1 & F2).
      exists f'. split; [exact E|]. split.
      + intros a b Ha Hb. destruct (Nat.eq_dec a k) as [->|Hne].
        * rewrite F2 by lia. apply G1; lia.
        * apply F1; lia.
      + intros a b Ha. rewrite F2 by lia. apply G2. left. lia. }
  destruct (ROWS (Z.to_nat (imax - imin)) 0 (fun _ _ => junk) ltac:(lia)) as (f & E & F1 & _).
  unfold zrange at 2. rewrite E. cbn [bind].
  eexists. split; [reflexivity|]. cbn [mrows mcols ment]. split; [reflexivity|]. split; [reflexivity|].
  intros i j Hi Hj. apply F1; lia.
Qed.

(** C48: part of a column. *)
Theorem matrix_column_output : forall num (junk : num) imin imax j m d,
  (0 <= imin <= imax)%Z -> (imax <= Z.of_nat (mrows m))%Z -> (0 <= j < Z.of_nat (mcols m))%Z ->
  exists r, matrixColumnOp junk imin imax j m = Ok r
    /\ length r = Z.to_nat (imax - imin)
    /\ forall i, i < length r -> nth i r d = ment m (Z.to_nat imin + i) (Z.to_nat j).
Proof.
  intros num junk imin imax j m d Hi1 Hi2 Hj. unfold matrixColumnOp.
  destruct (Z.ltb_spec (imax - imin) 0); [lia|].
  assert (G : forall n k (res : list num), k + n <= length res -> Z.to_nat imin + k + n <= mrows m ->
    exists r, ofold (fun res i => let* x := mat_get m i j in vset res (Z.to_nat (i - imin)) x)
      (map (fun k => (imin + Z.of_nat k)%Z) (seq k n)) res = Ok r
      /\ length r = length res
      /\ (forall i, k <= i < k + n -> nth i r d = ment m (Z.to_nat imin + i) (Z.to_nat j))
      /\ (forall i, i < k -> nth i r d = nth i res d)).
  { clear -Hi1 Hj. induction n; intros k res Hl Hr; cbn [seq map ofold].
    - exists res. split; [reflexivity|]. split; [reflexivity|]. split; [intros; lia | auto].
    - assert (EM : mat_get m (imin + Z.of_nat k) j = Ok (ment m (Z.to_nat imin + k) (Z.to_nat j))).
      { unfold mat_get. destruct (Z.leb_spec 0 (imin + Z.of_nat k)); [|lia].
        destruct (Z.ltb_spec (imin + Z.of_nat k) (Z.of_nat (mrows m))); [|lia].
        destruct (Z.leb_spec 0 j); [|lia].
        destruct (Z.ltb_spec j (Z.of_nat (mcols m))); [|lia]. cbn [andb].
        f_equal. f_equal; lia. }
      rewrite EM. cbn [bind]. replace (Z.to_nat (imin + Z.of_nat k - imin)) with k by lia.
      unfold vset at 1. destruct (Nat.ltb_spec k (length res)); [|lia]. cbn [bind].
      destruct (IHn (S k) (upd res k (ment m (Z.to_nat imin + k) (Z.to_nat j)))) as (r & E & F1 & F2 & F3).
      { rewrite upd_length. lia. } { lia. }
      exists r. split; [exact E|]. rewrite upd_length in F1. split; [exact F1|]. split.
      + intros i Hi. destruct (Nat.eq_dec i k) as [->|Hne].
        * rewrite F3 by lia. rewrite nth_upd, Nat.eqb_refl.
          destruct (Nat.ltb_spec k (length res)); [reflexivity | lia].
        * apply F2; lia.
      + intros i Hi. rewrite F3 by lia. rewrite nth_upd.
        destruct (Nat.eqb_spec k i); [lia | reflexivity]. }
  destruct (G (Z.to_nat (imax - imin)) 0 (repeat junk (Z.to_nat (imax - imin)))) as (r & E & F1 & F2 & _).
  { rewrite repeat_length. lia. } { lia. }
  unfold zrange. rewrite E. exists r. split; [reflexivity|]. rewrite repeat_length in F1.
  split; [exact F1|]. intros i Hi. apply F2. lia.
Qed.

(* ------------------------------------------------------------------ *)
(** * C77: comparisons, weighted sum, difference *)

(** The comparison is the disjunction (default) or the conjunction over all components. *)
Theorem comparison_output : forall num (lt le : num -> num -> bool) any equal a b d,
  length a = length b ->
  exists r, matrixComparisonOp lt le any equal a b = Ok r
    /\ let cmp j := (if equal then le else lt) (nth j a d) (nth j b d) in
       (any = true -> (r = true <-> exists j, j < length a /\ cmp j = true))
       /\ (any = false -> (r = true <-> forall j, j < length a -> cmp j = true)).
Proof.
  intros num lt le any equal a b d HL. unfold matrixComparisonOp. rewrite HL, Nat.eqb_refl.
  eexists. split; [reflexivity|]. cbv zeta.
  set (c := map _ _).
  assert (Hc : forall j, j < length a -> nth j c false = (if equal then le else lt) (nth j a d) (nth j b d)).
  { intros j Hj. unfold c.
    rewrite (nth_indep _ false ((fun p => if equal then le (fst p) (snd p) else lt (fst p) (snd p)) (d, d)))
      by (rewrite map_length, combine_length; lia).
    rewrite (map_nth (fun p => if equal then le (fst p) (snd p) else lt (fst p) (snd p))).
    rewrite combine_nth by exact HL. simpl. destruct equal; reflexivity. }
  assert (Hl : length c = length a) by (unfold c; rewrite map_length, combine_length; lia).
  split; intros ->.
  - rewrite existsb_exists. rewrite <- HL. split.
    + intros (x & Hx & ->). apply (In_nth _ _ false) in Hx. destruct Hx as (j & Hj & E).
      exists j. rewrite Hl in Hj. split; [exact Hj|]. rewrite <- Hc by exact Hj. exact E.
    + intros (j & Hj & E). exists true. split; [|reflexivity].
      rewrite <- Hc in E by exact Hj. rewrite <- E. apply nth_In. lia.
  - rewrite forallb_forall. rewrite <- HL. split.
    + intros H j Hj. rewrite <- Hc by exact Hj. apply H. apply nth_In. lia.
    + intros H x Hx. apply (In_nth _ _ false) in Hx. destruct Hx as (j & Hj & <-).
      rewrite Hc by lia. apply H. lia.
Qed.

Section BinR.
  Local Open Scope R_scope.

  Theorem weighted_adder_output : forall g1 g2 a b, length a = length b ->
    exists r, weightedAdderOp Rplus Rmult g1 g2 a b = Ok r /\ length r = length a
      /\ forall j, nth j r 0 = g1 * nth j a 0 + g2 * nth j b 0.
  Proof.
    intros g1 g2 a b HL. unfold weightedAdderOp. rewrite map_length, HL, Nat.eqb_refl.
    eexists. split; [reflexivity|]. split.
    - rewrite map_length, combine_length, map_length. lia.
    - revert b HL; induction a as [|x a IH]; intros [|y b] HL j; simpl in HL; try discriminate.
      + destruct j; simpl; ring.
      + destruct j; simpl; [ring|]. apply IH. lia.
  Qed.

  Theorem substraction_output : forall a b, length a = length b ->
    exists r, substractionOp Rminus a b = Ok r /\ length r = length a
      /\ forall j, nth j r 0 = nth j a 0 - nth j b 0.
  Proof.
    intros a b HL. unfold substractionOp. rewrite HL, Nat.eqb_refl.
    eexists. split; [reflexivity|]. split.
    - rewrite map_length, combine_length. lia.
    - revert b HL; induction a as [|x a IH]; intros [|y b] HL j; simpl in HL; try discriminate.
      + destruct j; simpl; ring.
      + destruct j; simpl; [ring|]. apply IH. lia.
  Qed.
End BinR.

Example comparison_example :
  matrixComparisonOp Nat.ltb Nat.leb true false [1; 5] [2; 3] = Ok true
  /\ matrixComparisonOp Nat.ltb Nat.leb false false [1; 5] [2; 3] = Ok false
  /\ matrixComparisonOp Nat.ltb Nat.leb false true [2; 3] [2; 3] = Ok true.
Proof. repeat split. Qed.

(* ------------------------------------------------------------------ *)
(** * C78: temporal convolution *)

Section Conv.
  Local Open Scope R_scope.

  (** sum over the n latest samples, the latest first, of m2(i,j) * s_j(i). *)
  Definition conv_sum (m2 : matrix R) (samples : list (list R)) (i : nat) : R :=
    fold_right Rplus 0
      (map (fun j => ment m2 i j * nth i (nth j samples []) 0) (seq 0 (length samples))).

  Lemma conv_add_spec m2 j s res : length res = mrows m2 ->
    length (conv_add 0 Rplus Rmult m2 j s res) = mrows m2
    /\ forall i, (i < mrows m2)%nat ->
       nth i (conv_add 0 Rplus Rmult m2 j s res) 0 = nth i res 0 + ment m2 i j * nth i s 0.
  Proof.
    intros HL. unfold conv_add.
    set (body := fun i r => _).
    assert (H : (fun k r => length r = mrows m2
       /\ (forall i, (i < k)%nat -> nth i r 0 = nth i res 0 + ment m2 i j * nth i s 0)
       /\ (forall i, (k <= i)%nat -> nth i r 0 = nth i res 0))
       (mrows m2) (for_range 0 (mrows m2) body res)).
    { apply (for_range_ind (fun k r => length r = mrows m2
       /\ (forall i, (i < k)%nat -> nth i r 0 = nth i res 0 + ment m2 i j * nth i s 0)
       /\ (forall i, (k <= i)%nat -> nth i r 0 = nth i res 0))).
      - lia.
      - split; [exact HL|]. split; [intros; lia | auto].
      - intros k r Hk (H1 & H2 & H3). unfold body. rewrite upd_length. split; [exact H1|].
        split; intros i Hi; rewrite nth_upd, H1.
        + destruct (Nat.eqb_spec k i) as [<-|]; simpl.
          * destruct (Nat.ltb_spec k (mrows m2)); [|lia]. rewrite H3 by lia. reflexivity.
          * apply H2. lia.
        + destruct (Nat.eqb_spec k i); [lia|]. simpl. apply H3. lia. }
    destruct H as (H1 & H2 & _). split; [exact H1 | exact H2].
  Qed.

  Lemma conv_loop_spec m2 : forall f1 j res, length res = mrows m2 ->
    Forall (fun s => length s = mrows m2) f1 ->
    length (conv_loop 0 Rplus Rmult m2 j f1 res) = mrows m2
    /\ forall i, (i < mrows m2)%nat ->
       nth i (conv_loop 0 Rplus Rmult m2 j f1 res) 0
       = nth i res 0 + fold_right Rplus 0
          (map (fun k => ment m2 i (j + k) * nth i (nth k f1 []) 0) (seq 0 (length f1))).
  Proof.
    induction f1 as [|s f1 IH]; intros j res HL HF; cbn [conv_loop].
    - split; [exact HL|]. intros i Hi. simpl. ring.
    - pose proof (Forall_inv HF) as Hs. pose proof (Forall_inv_tail HF) as HF'.
      rewrite Hs, Nat.eqb_refl. cbn [negb].
      destruct (conv_add_spec m2 j s res HL) as (L1 & A1).
      destruct (IH (S j) _ L1 HF') as (L2 & A2). split; [exact L2|].
      intros i Hi. rewrite A2, A1 by exact Hi. cbn [length seq map fold_right].
      rewrite Nat.add_0_r. cbn [nth]. rewrite <- seq_shift, map_map.
      rewrite Rplus_assoc. do 2 f_equal. f_equal.
      apply map_ext. intros k. cbn [nth]. do 2 f_equal. lia.
  Qed.

  (** Outputs of a sequence of samples with a constant kernel. *)
  Definition conv_run (m2 : matrix R) (h : list (list R)) : list (list R) * list R :=
    fold_left (fun st v => convolutionOp 0 Rplus Rmult v m2 st) h ([], []).

  Lemma conv_memory m2 h : fst (conv_run m2 h) = firstn (mcols m2) (rev h).
  Proof.
    unfold conv_run. induction h as [|v h IH] using rev_ind; [destruct (mcols m2); reflexivity|].
    rewrite fold_left_app, rev_app_distr. cbn [fold_left rev app]. unfold convolutionOp at 1.
    destruct (fold_left _ h ([], [])) as [mem res] eqn:E. simpl in IH. subst mem.
    cbn [fst]. destruct (mcols m2) as [|c]; [reflexivity|]. rewrite !firstn_cons. f_equal.
    rewrite firstn_firstn. f_equal. lia.
  Qed.

  (** C78: the output is the convolution of the kernel with the latest samples, as many as
      there are columns in the kernel. *)
  Theorem convolution_output : forall m2 h v,
    Forall (fun s => length s = mrows m2) (h ++ [v]) ->
    let out := snd (conv_run m2 (h ++ [v])) in
    length out = mrows m2
    /\ forall i, (i < mrows m2)%nat ->
       nth i out 0 = conv_sum m2 (firstn (mcols m2) (rev (h ++ [v]))) i.
  Proof.
    intros m2 h v HF out. subst out.
    pose proof (conv_memory m2 (h ++ [v])) as HM.
    unfold conv_run in *. rewrite fold_left_app in *. cbn [fold_left] in *.
    destruct (fold_left _ h ([], [])) as [mem res].
    unfold convolutionOp in *. cbn [fst snd] in *. rewrite HM in *. unfold convolution.
    destruct (Nat.ltb_spec (mcols m2) (length (firstn (mcols m2) (rev (h ++ [v]))))) as [Hlt|Hge].
    { rewrite firstn_length in Hlt. lia. }
    assert (HF2 : Forall (fun s => length s = mrows m2) (firstn (mcols m2) (rev (h ++ [v])))).
    { apply Forall_forall. intros s Hs. rewrite Forall_forall in HF. apply HF.
      apply in_rev. rewrite <- (firstn_skipn (mcols m2)). apply in_or_app. left. exact Hs. }
    destruct (conv_loop_spec m2 _ 0 (repeat 0 (mrows m2)) ltac:(apply repeat_length) HF2) as (L & A).
    split; [exact L|]. intros i Hi. rewrite A by exact Hi. rewrite nth_repeat_lt by exact Hi.
    unfold conv_sum. rewrite Rplus_0_l. reflexivity.
  Qed.

  (** A sample of another size silently cuts the sum: with the kernel (1 1) the sample [5]
      older than [9;9] is lost although it is remembered. *)
  Theorem convolution_size_change_refuted :
    let m2 := mkmat 1 3 (fun _ _ => 1) in
    snd (conv_run m2 [[5]; [9; 9]; [2]]) = [0 + 1 * 2].
  Proof. reflexivity. Qed.

  Example convolution_example :
    let m2 := mkmat 1 2 (fun _ j => if (j =? 0)%nat then 10 else 1) in
    nth 0 (snd (conv_run m2 [[7]; [5]; [3]])) 0 = 35
    /\ Forall (fun s => length s = mrows m2) ([[7]; [5]] ++ [[3]]).
  Proof.
    split.
    - unfold conv_run. simpl. unfold convolution, conv_loop, conv_add, for_range. simpl. ring.
    - repeat constructor.
  Qed.
End Conv.

(* ------------------------------------------------------------------ *)
(** * C48, C77: ranges and sizes are never tested *)

Lemma ofold_ub {S I} (P : S -> Prop) (f : S -> I -> outcome S) (l : list I) (x : I) :
  (forall s i w, f s i <> Throw w) ->
  (forall s i s', P s -> f s i = Ok s' -> P s') ->
  In x l -> (forall s, P s -> f s x = UB) ->
  forall s, P s -> ofold f l s = UB.
Proof.
  intros Ht Hp Hin Hx. induction l as [|i r IH]; [destruct Hin|]; intros s Hs. simpl.
  destruct Hin as [-> | Hin]; [rewrite Hx by exact Hs; reflexivity|].
  destruct (f s i) as [s'|w|] eqn:E; simpl; [|destruct (Ht s i w E)|reflexivity].
  apply IH; [exact Hin|]. eapply Hp; eauto.
Qed.
Lemma ofold_quiet {S I} (f : S -> I -> outcome S) (l : list I) :
  (forall s i w, f s i <> Throw w) -> forall s w, ofold f l s <> Throw w.
Proof.
  intros Ht. induction l as [|i r IH]; intros s w; simpl; [discriminate|].
  destruct (f s i) as [s'|w'|] eqn:E; simpl; [apply IH|destruct (Ht s i w' E)|discriminate].
Qed.

Lemma zget_out {A} (v : list A) i : ~ (0 <= i < Z.of_nat (length v))%Z -> zget v i = UB.
Proof.
  intros H. unfold zget. destruct (Z.ltb_spec i 0); [reflexivity|]. unfold vget.
  destruct (nth_error v (Z.to_nat i)) eqn:E; [|reflexivity].
  assert (Z.to_nat i < length v) by (apply nth_error_Some; congruence). lia.
Qed.
Lemma zset_out {A} (v : list A) i x : ~ (0 <= i < Z.of_nat (length v))%Z -> zset v i x = UB.
Proof.
  intros H. unfold zset. destruct (Z.ltb_spec i 0); [reflexivity|]. unfold vset.
  destruct (Nat.ltb_spec (Z.to_nat i) (length v)); [lia|reflexivity].
Qed.
Lemma zget_quiet {A} (v : list A) i w : zget v i <> Throw w.
Proof. unfold zget, vget. destruct (i <? 0)%Z; [|destruct (nth_error _ _)]; discriminate. Qed.
Lemma zset_quiet {A} (v : list A) i x w : zset v i x <> Throw w.
Proof. unfold zset, vset. destruct (i <? 0)%Z; [|destruct (_ <? _)]; discriminate. Qed.
Lemma zset_length {A} (v : list A) i x v' : zset v i x = Ok v' -> length v' = length v.
Proof.
  unfold zset, vset. destruct (i <? 0)%Z; [discriminate|]. destruct (_ <? _); [|discriminate].
  intros [= <-]. apply upd_length.
Qed.
Lemma in_zrange lo hi i : (lo <= i < hi)%Z -> In i (zrange lo hi).
Proof.
  intros H. unfold zrange. apply in_map_iff. exists (Z.to_nat (i - lo)). split; [lia|]. apply in_seq. lia.
Qed.

(** A selection that holds a range which is not inside the vector is undefined, whatever the others. *)
Theorem selecter_outside : forall num (junk : num) h v m M,
  In (m, M) (ranges h) -> ~ inside v m M ->
  selecterOp junk (fold_left selstep h selecter0) v = UB.
Proof.
  intros num junk h v m M Hin Ho. destruct (selecter_state h) as (E1 & E2).
  unfold selecterOp. rewrite E1. destruct (_ <? 0)%Z; [reflexivity|].
  rewrite (ofold_ub (fun _ => True) _ _ (m, (M - m)%Z)); try exact I; auto.
  - intros [r res] [i n] w. simpl. unfold segment_of, assign_segment.
    destruct (_ && _); simpl; [|discriminate]. destruct (_ && _); simpl; discriminate.
  - apply in_map_iff. exists (m, M). auto.
  - intros [r res] _. simpl. unfold segment_of, inside in *.
    destruct (Z.leb_spec 0 m); [|reflexivity]. destruct (Z.leb_spec 0 (M - m)); [|reflexivity].
    destruct (Z.leb_spec (m + (M - m)) (Z.of_nat (length v))); [lia|reflexivity].
Qed.

Theorem component_outside : forall num (v : list num),
  componentOp None v = UB /\
  (forall i, ~ (0 <= i < Z.of_nat (length v))%Z -> componentOp (Some i) v = UB).
Proof. intros num v. split; [reflexivity|]. intros i H. apply zget_out. exact H. Qed.

(** Stacking: a range that is reversed, or not empty and not inside its vector. *)
Theorem stack_outside : forall num (junk : num) m1 M1 m2 M2 v1 v2,
  m1 <> M1 /\ ~ inside v1 m1 M1 \/ m2 <> M2 /\ ~ inside v2 m2 M2 ->
  vectorStackOp junk m1 M1 m2 M2 v1 v2 = UB.
Proof.
  intros num junk m1 M1 m2 M2 v1 v2 Ho. unfold vectorStackOp. cbv zeta.
  destruct (Z.ltb_spec (M1 - m1 + (M2 - m2)) 0) as [|Hn]; [reflexivity|].
  set (n := Z.to_nat (M1 - m1 + (M2 - m2))).
  assert (Q : forall src off p (s : list num) i w,
    (let* x := zget src (i + off) in zset s (p + i) x) <> Throw w).
  { intros src off p s i w. destruct (zget src (i + off)) as [x|w'|] eqn:E; simpl.
    - apply zset_quiet.
    - destruct (zget_quiet _ _ _ E).
    - discriminate. }
  assert (L : forall src off p (s : list num) i s', length s = n ->
    (let* x := zget src (i + off) in zset s (p + i) x) = Ok s' -> length s' = n).
  { intros src off p s i s' Hs. destruct (zget src (i + off)); simpl; try discriminate.
    intros E. apply zset_length in E. congruence. }
  assert (U : forall src off p (s : list num) i, length s = n ->
    ~ (0 <= i + off < Z.of_nat (length src))%Z \/ ~ (0 <= p + i < Z.of_nat n)%Z ->
    (let* x := zget src (i + off) in zset s (p + i) x) = UB).
  { intros src off p s i Hs [H|H].
    - rewrite zget_out by exact H. reflexivity.
    - destruct (zget src (i + off)) as [x|w'|] eqn:E; simpl.
      + apply zset_out. rewrite Hs. exact H.
      + destruct (zget_quiet _ _ _ E).
      + reflexivity. }
  assert (K : forall src off p k (s : list num) i, length s = n -> (0 <= i < k)%Z ->
    ~ (0 <= i + off < Z.of_nat (length src))%Z \/ ~ (0 <= p + i < Z.of_nat n)%Z ->
    ofold (fun s i => let* x := zget src (i + off) in zset s (p + i) x) (zrange 0 k) s = UB).
  { intros src off p k s i Hs Hi Hb.
    apply (ofold_ub (fun s => length s = n) _ _ i).
    - intros; apply Q.
    - intros s0 j s' H0 H1. exact (L _ _ _ _ _ _ H0 H1).
    - apply in_zrange. exact Hi.
    - intros s0 H0. apply U; assumption.
    - exact Hs. }
  assert (Hr : length (repeat junk n) = n) by apply repeat_length.
  assert (Hin : forall v m M, (m < M)%Z -> ~ @inside num v m M ->
    exists i, (0 <= i < M - m)%Z /\ ~ (0 <= i + m < Z.of_nat (length v))%Z).
  { intros v m M Hlt Hi. unfold inside in Hi. destruct (Z.ltb_spec m 0).
    - exists 0%Z. lia.
    - exists (M - m - 1)%Z. lia. }
  pose proof (fun k i => K v1 m1 0%Z k (repeat junk n) i Hr) as K1.
  cbn [Z.add] in K1.
  assert (Second : forall res1, length res1 = n ->
    m2 <> M2 /\ ~ inside v2 m2 M2 \/ (M1 < m1)%Z -> (m2 <= M2)%Z ->
    ofold (fun res i => let* x := zget v2 (i + m2) in zset res (M1 - m1 + i) x) (zrange 0 (M2 - m2)) res1 = UB).
  { intros res1 H1 [[A B]|A] C.
    - destruct (Hin v2 m2 M2 ltac:(lia) B) as (i & Hi & Hb). eapply K; eauto.
    - apply (K _ _ _ _ _ 0%Z); auto; lia. }
  destruct (ofold _ (zrange 0 (M1 - m1)) (repeat junk n)) as [res1|w|] eqn:E1; simpl; [| |reflexivity].
  2:{ exfalso. eapply ofold_quiet; [|exact E1]. intros s i w'. apply (Q v1 m1 0%Z s i w'). }
  assert (H1 : length res1 = n).
  { clear -E1 L Hr. revert E1 Hr. generalize (repeat junk n) as s. induction (zrange 0 (M1 - m1)) as [|i r IH];
      intros s E Hs; cbn [ofold] in E; [congruence|].
    destruct (let* x := zget v1 (i + m1) in zset s i x) as [s'| |] eqn:Es; simpl in E; try discriminate.
    apply (IH s' E). exact (L v1 m1 0%Z s i s' Hs Es). }
  destruct (Z.leb_spec m2 M2) as [H2|H2].
  - destruct (Z.ltb_spec M1 m1) as [H3|H3]; [apply Second; auto|].
    destruct Ho as [[A B]|Ho]; [|apply Second; auto].
    destruct (Hin v1 m1 M1 ltac:(lia) B) as (i & Hi & Hb).
    rewrite (K1 (M1 - m1)%Z i Hi (or_introl Hb)) in E1. discriminate.
  - rewrite (K1 (M1 - m1)%Z (Z.of_nat n)) in E1; [discriminate| |]; unfold n; lia.
Qed.

(** The block and the column of a matrix: reversed bounds, or an index of the block outside the matrix. *)
Theorem matrix_selector_outside : forall num (junk : num) imin imax jmin jmax m,
  (imax < imin \/ jmax < jmin)%Z \/
  (exists i j, (imin <= i < imax)%Z /\ (jmin <= j < jmax)%Z /\
     ~ ((0 <= i < Z.of_nat (mrows m))%Z /\ (0 <= j < Z.of_nat (mcols m))%Z)) ->
  matrixSelectorOp junk imin imax jmin jmax m = UB.
Proof.
  intros num junk imin imax jmin jmax m H. unfold matrixSelectorOp.
  destruct (Z.ltb_spec (imax - imin) 0); [reflexivity|].
  destruct (Z.ltb_spec (jmax - jmin) 0); [reflexivity|]. cbn [orb].
  destruct H as [|(i & j & Hi & Hj & Ho)]; [lia|].
  assert (Q : forall f i0 (j0 : Z) w,
    (let* x := mat_get m i0 j0 in
     Ok (fset f (Z.to_nat (i0 - imin)) (Z.to_nat (j0 - jmin)) x)) <> Throw w).
  { intros. unfold mat_get. destruct (_ && _); simpl; discriminate. }
  rewrite (ofold_ub (fun _ => True) _ _ i); auto.
  - intros s i0 w. apply ofold_quiet. intros. apply Q.
  - apply in_zrange. exact Hi.
  - intros s _. apply (ofold_ub (fun _ => True) _ _ j); auto.
    + apply in_zrange. exact Hj.
    + intros f _. unfold mat_get.
      destruct (Z.leb_spec 0 i); [|reflexivity]. destruct (Z.ltb_spec i (Z.of_nat (mrows m))); [|reflexivity].
      destruct (Z.leb_spec 0 j); [|reflexivity]. destruct (Z.ltb_spec j (Z.of_nat (mcols m))); [lia|reflexivity].
Qed.
Theorem matrix_column_outside : forall num (junk : num) imin imax j m,
  (imax < imin)%Z \/
  (exists i, (imin <= i < imax)%Z /\
     ~ ((0 <= i < Z.of_nat (mrows m))%Z /\ (0 <= j < Z.of_nat (mcols m))%Z)) ->
  matrixColumnOp junk imin imax j m = UB.
Proof.
  intros num junk imin imax j m H. unfold matrixColumnOp.
  destruct (Z.ltb_spec (imax - imin) 0); [reflexivity|].
  destruct H as [|(i & Hi & Ho)]; [lia|].
  apply (ofold_ub (fun _ => True) _ _ i); auto.
  - intros s i0 w. unfold mat_get. destruct (_ && _); simpl; [|discriminate].
    unfold vset. destruct (_ <? _); discriminate.
  - apply in_zrange. exact Hi.
  - intros f _. unfold mat_get.
    destruct (Z.leb_spec 0 i); [|reflexivity]. destruct (Z.ltb_spec i (Z.of_nat (mrows m))); [|reflexivity].
    destruct (Z.leb_spec 0 j); [|reflexivity]. destruct (Z.ltb_spec j (Z.of_nat (mcols m))); [lia|reflexivity].
Qed.

(** Comparison, weighted sum and difference of operands of different sizes. *)
Theorem binary_sizes_unchecked_refuted : forall num (lt le : num -> num -> bool) (add mul sub : num -> num -> num)
  any equal g1 g2 a b, length a <> length b ->
  matrixComparisonOp lt le any equal a b = UB /\
  weightedAdderOp add mul g1 g2 a b = UB /\ substractionOp sub a b = UB.
Proof.
  intros num lt le add mul sub any equal g1 g2 a b H.
  unfold matrixComparisonOp, weightedAdderOp, substractionOp. cbv zeta. rewrite map_length.
  apply Nat.eqb_neq in H. rewrite H. auto.
Qed.

Example outside_case :
  (In (3, 7)%Z (ranges [SSet 0 1; SAdd 3 7]) /\ ~ inside [10; 11; 12; 13; 14] 3 7) /\
  (2 <> 0)%Z /\ ~ inside [1; 2; 3] 2 0 /\ length [1] <> length [1; 2].
Proof. unfold inside. simpl. repeat split; auto; lia. Qed.

Print Assumptions selecter_output.
Print Assumptions selecter_unchecked_refuted.
Print Assumptions component_output.
Print Assumptions stack_output.
Print Assumptions matrix_selector_output.
Print Assumptions matrix_column_output.
Print Assumptions comparison_output.
Print Assumptions weighted_adder_output.
Print Assumptions substraction_output.
Print Assumptions convolution_output.
Print Assumptions convolution_size_change_refuted.
Print Assumptions selecter_outside.
Print Assumptions component_outside.
Print Assumptions stack_outside.
Print Assumptions matrix_selector_outside.
Print Assumptions matrix_column_outside.
Print Assumptions binary_sizes_unchecked_refuted.
