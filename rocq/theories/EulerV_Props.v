(** C46 for the Euler integrators on vectors (the one on doubles is in Filter_Signal_Props.v). *)
From Coq Require Import String List Arith Lia Bool Reals Lra Psatz.
From Verif Require Import Base EulerV_Model.
Import ListNotations.

Lemma sum_to_ext n f g : (forall i, i < n -> f i = g i) -> sum_to n f = sum_to n g.
Proof. induction n; intros H; simpl; auto. rewrite IHn by (intros; apply H; lia). rewrite H by lia. reflexivity. Qed.

Lemma upd_same {A} (l : list A) i a z : i < length l -> nth i (upd l i a) z = a.
Proof. intros H. rewrite nth_upd, Nat.eqb_refl, (proj2 (Nat.ltb_lt _ _) H). reflexivity. Qed.
Lemma upd_other {A} (l : list A) i j a z : i <> j -> nth j (upd l i a) z = nth j l z.
Proof. intros H. rewrite nth_upd. destruct (Nat.eqb_spec i j); [congruence|reflexivity]. Qed.

Lemma last_cons {A} (l : list A) a z : last (a :: l) z = last l a.
Proof. revert a z. induction l as [|b l IH]; intros a z; [reflexivity|]. change (last (a :: b :: l) z) with (last (b :: l) z). rewrite !IH. reflexivity. Qed.

(** * What is common to the three classes *)
Section Generic.
Variables sig coef : Type.
Variables (add sub : sig -> sig -> outcome sig) (scale : sig -> R -> sig) (mul : coef -> sig -> outcome sig).
Variable is_identity : coef -> bool.
(** Signals with [n] components, coefficients that fit them, and what a coefficient does to the
    components. *)
Variable n : nat.
Variable good : sig -> Prop.
Variable fits : coef -> Prop.
Variable comp : sig -> nat -> R.
Variable act : coef -> (nat -> R) -> nat -> R.
Hypothesis add_ok : forall a b, good a -> good b -> exists c, add a b = Ok c /\ good c /\ forall k, k < n -> comp c k = (comp a k + comp b k)%R.
Hypothesis sub_ok : forall a b, good a -> good b -> exists c, sub a b = Ok c /\ good c /\ forall k, k < n -> comp c k = (comp a k - comp b k)%R.
Hypothesis scale_ok : forall a r, good a -> good (scale a r) /\ forall k, k < n -> comp (scale a r) k = (comp a k * r)%R.
Hypothesis mul_ok : forall c a, fits c -> good a -> exists b, mul c a = Ok b /\ good b /\ forall k, k < n -> comp b k = act c (comp a) k.
Hypothesis act_ext : forall c f g k, k < n -> (forall j, j < n -> f j = g j) -> act c f k = act c g k.
Variables (z : sig) (cz : coef).

Notation integ := (integ sig coef).
Notation integrate := (integrate sig coef add sub scale mul).
Notation initialize := (initialize sig coef is_identity).
Notation step := (step sig coef add sub scale mul).

Definition ready (e : integ) : Prop :=
  1 <= length (num e) /\ 1 <= length (den e) /\ length (inm e) = length (num e) /\ length (outm e) = length (den e) /\
  (forall i, i < length (num e) -> fits (nth i (num e) cz)) /\
  (forall i, i < length (den e) - 1 -> fits (nth i (den e) cz)) /\
  (forall i, i < length (inm e) -> good (nth i (inm e) z)) /\
  (forall i, i < length (outm e) -> good (nth i (outm e) z)).
Definition xin (e : integ) i : nat -> R := comp (nth i (inm e) z).
Definition yout (e : integ) i : nat -> R := comp (nth i (outm e) z).

Definition equations (e e' : integ) (x y : sig) : Prop :=
  let d := length (den e) - 1 in
  (forall c, c < n -> xin e' 0 c = comp x c) /\
  (forall i c, S i < length (num e) -> c < n -> xin e' (S i) c = ((xin e' i c - xin e i c) * invdt e)%R) /\
  (forall c, c < n -> yout e' d c = (sum_to (length (num e)) (fun i => act (nth i (num e) cz) (xin e' i) c)
                                     - sum_to d (fun i => act (nth i (den e) cz) (yout e i) c))%R) /\
  (forall i c, i < d -> c < n -> yout e' i c = (yout e i c + yout e' (S i) c * dt e)%R) /\
  y = nth 0 (outm e') z.

Lemma generic_step (e : integ) (x : sig) : ready e -> good x ->
  exists e' y, integrate e x = Ok (e', y) /\ ready e' /\
    num e' = num e /\ den e' = den e /\ dt e' = dt e /\ invdt e' = invdt e /\ equations e e' x y.
Proof.
  intros (Hn & Hd & Hi & Ho & FN & FD & GI & GO) Gx. unfold EulerV_Model.integrate.
  rewrite (vget_ok (inm e) 0 z) by lia. cbn [bind].
  unfold vset at 1. rewrite (proj2 (Nat.ltb_lt 0 (length (inm e)))) by lia. cbn [bind].
  rewrite (vget_ok (num e) 0 cz) by lia. cbn [bind].
  destruct (mul_ok (nth 0 (num e) cz) x (FN 0 Hn) Gx) as (s0 & E0 & G0 & C0). rewrite E0. cbn [bind].
  pose (P := fun (k : nat) (st : list sig * sig * sig) =>
    let '(im, t1, sum) := st in
    length im = length (inm e) /\ nth 0 im z = x /\ (forall i, i < length im -> good (nth i im z)) /\ good t1 /\ good sum /\
    (forall i c, S i < k -> c < n -> comp (nth (S i) im z) c = ((comp (nth i im z) c - xin e i c) * invdt e)%R) /\
    (forall i, k <= i -> nth i im z = nth i (inm e) z) /\
    t1 = nth (k - 1) (inm e) z /\
    (forall c, c < n -> comp sum c = sum_to k (fun i => act (nth i (num e) cz) (comp (nth i im z)) c))).
  match goal with |- context [ofor_range 1 (length (num e)) ?b ?s] =>
    destruct (ofor_range_ind P 1 (length (num e)) b s) as ([[im t1] sum] & E & HP) end.
  - lia.
  - unfold P. rewrite upd_length, upd_same by lia.
    split; [reflexivity|]. split; [reflexivity|]. split; [|split; [|split; [|split; [|split; [|split]]]]].
    + intros i Hl. destruct (Nat.eq_dec i 0) as [->|Ne]; [rewrite upd_same by lia; exact Gx|].
      rewrite upd_other by lia. apply GI. exact Hl.
    + apply GI. lia.
    + exact G0.
    + intros; lia.
    + intros i H. apply upd_other. lia.
    + reflexivity.
    + intros c Hc. simpl. rewrite upd_same by lia. rewrite C0 by exact Hc. lra.
  - intros k [[im t1] s] Hk (HL & H0 & HG1 & Gt & Gs & HS & HG & Ht & Hsum).
    cbn beta iota zeta. rewrite (vget_ok im (k - 1) z) by lia. cbn [bind].
    destruct (sub_ok (nth (k - 1) im z) t1 ltac:(apply HG1; lia) Gt) as (q & Eq & Gq & Cq). rewrite Eq. cbn [bind].
    rewrite (vget_ok im k z) by lia. cbn [bind].
    unfold vset. rewrite (proj2 (Nat.ltb_lt k (length im))) by lia. cbn [bind].
    rewrite (vget_ok (num e) k cz) by lia. cbn [bind].
    destruct (scale_ok q (invdt e) Gq) as (Gt2 & Ct2).
    destruct (mul_ok (nth k (num e) cz) (scale q (invdt e)) (FN k ltac:(lia)) Gt2) as (m & Em & Gm & Cm). rewrite Em. cbn [bind].
    destruct (add_ok s m Gs Gm) as (s' & Es & Gs' & Cs). rewrite Es. cbn [bind].
    eexists. split; [reflexivity|]. unfold P. rewrite upd_length.
    split; [exact HL|]. split; [rewrite upd_other by lia; exact H0|].
    split; [|split; [|split; [|split; [|split; [|split]]]]].
    + intros i Hl. destruct (Nat.eq_dec i k) as [->|Ne]; [rewrite upd_same by lia; exact Gt2|].
      rewrite upd_other by lia. apply HG1. exact Hl.
    + apply HG1. lia.
    + exact Gs'.
    + intros i c Hi' Hc. destruct (Nat.eq_dec (S i) k) as [Ek|Ek].
      * rewrite Ek. rewrite upd_same by lia. rewrite upd_other by lia.
        rewrite Ct2, Cq by exact Hc. rewrite Ht. unfold xin. replace (k - 1) with i by lia. reflexivity.
      * rewrite !upd_other by lia. apply HS; [lia|exact Hc].
    + intros i Hi'. rewrite upd_other by lia. apply HG. lia.
    + simpl. rewrite Nat.sub_0_r. apply HG. lia.
    + intros c Hc. rewrite Cs by exact Hc. simpl. rewrite upd_same by lia. rewrite Cm by exact Hc. f_equal.
      rewrite Hsum by exact Hc. apply sum_to_ext. intros i Hi'. rewrite upd_other by lia. reflexivity.
  - rewrite E. cbn [bind]. destruct HP as (HL & H0 & HG1 & _ & Gs & HS & HG & _ & Hsum).
    destruct (Nat.eqb_spec (length (den e)) 0); [lia|].
    cbn zeta. set (d := length (den e) - 1) in *.
    (* step 3 *)
    match goal with |- context [ofor_range 0 d ?b sum] =>
      assert (E3 : exists top, ofor_range 0 d b sum = Ok top /\ good top /\
        forall c, c < n -> comp top c = (comp sum c - sum_to d (fun i => act (nth i (den e) cz) (yout e i) c))%R) end.
    { match goal with |- context [ofor_range 0 d ?b sum] =>
        destruct (ofor_range_ind (fun k s => good s /\ forall c, c < n -> comp s c = (comp sum c - sum_to k (fun i => act (nth i (den e) cz) (yout e i) c))%R) 0 d b sum) as (top & Et & Gt & Ct) end.
      - lia.
      - split; [exact Gs|]. intros; simpl; lra.
      - intros k s Hk (G1 & C1). cbn beta. rewrite (vget_ok (den e) k cz) by lia. cbn [bind].
        rewrite (vget_ok (outm e) k z) by lia. cbn [bind].
        destruct (mul_ok (nth k (den e) cz) (nth k (outm e) z) (FD k ltac:(lia)) ltac:(apply GO; lia)) as (m & Em & Gm & Cm).
        rewrite Em. cbn [bind]. destruct (sub_ok s m G1 Gm) as (s' & Es & Gs' & Cs). exists s'. split; [exact Es|].
        split; [exact Gs'|]. intros c Hc. rewrite Cs, C1, Cm by exact Hc. simpl. unfold yout. lra.
      - exists top. auto. }
    destruct E3 as (top & E3 & Gtop & Ctop). rewrite E3. cbn [bind].
    (* step 4 *)
    unfold vset at 1. rewrite (proj2 (Nat.ltb_lt d (length (outm e)))) by (subst d; lia). cbn [bind].
    pose (Q := fun (k : nat) (o : list sig) =>
      length o = length (outm e) /\ nth d o z = top /\ (forall i, i < length o -> good (nth i o z)) /\
      (forall i c, d - k <= i -> i < d -> c < n -> comp (nth i o z) c = (yout e i c + comp (nth (S i) o z) c * dt e)%R) /\
      (forall i, i < d - k -> nth i o z = nth i (outm e) z)).
    match goal with |- context [ofor_range 0 d ?b ?s] =>
      destruct (ofor_range_ind Q 0 d b s) as (om & E4 & HQ) end.
    + lia.
    + unfold Q. rewrite upd_length, upd_same by (subst d; lia). split; [reflexivity|]. split; [reflexivity|].
      split; [|split].
      * intros i Hl. destruct (Nat.eq_dec i d) as [->|Ne]; [rewrite upd_same by lia; exact Gtop|].
        rewrite upd_other by lia. apply GO. exact Hl.
      * intros; lia.
      * intros i H. apply upd_other. lia.
    + intros k o Hk (A & B & G & C & D). cbn zeta.
      rewrite (vget_ok o (d - 1 - k) z) by (subst d; lia). cbn [bind].
      rewrite (vget_ok o (d - 1 - k + 1) z) by (subst d; lia). cbn [bind].
      destruct (scale_ok (nth (d - 1 - k + 1) o z) (dt e) ltac:(apply G; subst d; lia)) as (G2 & C2).
      destruct (add_ok (nth (d - 1 - k) o z) _ ltac:(apply G; subst d; lia) G2) as (s & Es & Gs' & Cs).
      rewrite Es. cbn [bind].
      unfold vset. rewrite (proj2 (Nat.ltb_lt (d - 1 - k) (length o))) by (subst d; lia).
      eexists. split; [reflexivity|]. unfold Q. rewrite upd_length.
      split; [exact A|]. split; [rewrite upd_other by lia; exact B|]. split; [|split].
      * intros i Hl. destruct (Nat.eq_dec i (d - 1 - k)) as [->|Ne]; [rewrite upd_same by lia; exact Gs'|].
        rewrite upd_other by lia. apply G. exact Hl.
      * intros i c H1 H2 Hc. destruct (Nat.eq_dec i (d - 1 - k)) as [->|Ne].
        -- rewrite upd_same by (subst d; lia). rewrite upd_other by lia.
           rewrite Cs, C2 by exact Hc. rewrite D by lia. rewrite Nat.add_1_r. reflexivity.
        -- rewrite !upd_other by lia. apply C; [lia|lia|exact Hc].
      * intros i Hi'. rewrite upd_other by lia. apply D. lia.
    + rewrite E4. cbn [bind]. destruct HQ as (A & B & G & C & _).
      unfold vset. rewrite (proj2 (Nat.ltb_lt 0 (length im))) by lia. cbn [bind].
      rewrite (vget_ok om 0 z) by lia. cbn [bind].
      assert (EU : upd im 0 x = im).
      { destruct im as [|a im]; [simpl in HL; lia|]. simpl in *. rewrite H0. reflexivity. }
      rewrite EU. do 2 eexists. split; [reflexivity|].
      split; [unfold ready; simpl; repeat (split; [lia || assumption|]); exact G|].
      repeat (split; [reflexivity|]).
      unfold equations, xin, yout. simpl. fold d.
      split; [intros; rewrite H0; reflexivity|]. split; [intros i c H1 H2; apply HS; assumption|]. split; [|split].
      * intros c Hc. rewrite B, Ctop by exact Hc. rewrite Hsum by exact Hc. reflexivity.
      * intros i c Hi' Hc. apply C; [lia|exact Hi'|exact Hc].
      * reflexivity.
Qed.

Lemma generic_recurrence (e : integ) (x0 : sig) (xs : list sig) :
  num e <> [] -> den e <> [] -> is_identity (last (den e) cz) = true ->
  (forall c, In c (num e) -> fits c) -> (forall c, In c (removelast (den e)) -> fits c) ->
  good x0 -> (forall x, In x xs -> good x) ->
  let d := length (den e) - 1 in
  exists e0 ef outs (X Y : nat -> nat -> nat -> R),
    initialize e x0 = Ok e0 /\ ofold step xs (e0, []) = Ok (ef, outs) /\
    length outs = length xs /\ (forall y, In y outs -> good y) /\
    forall c, c < n ->
    (forall i, i < length (num e) -> X i 0 c = comp x0 c) /\
    (forall i, i <= d -> Y i 0 c = comp x0 c) /\
    (forall k, k < length xs ->
      X 0 (S k) c = comp (nth k xs z) c /\
      (forall i, S i < length (num e) -> X (S i) (S k) c = ((X i (S k) c - X i k c) * invdt e)%R) /\
      (Y d (S k) c + sum_to d (fun i => act (nth i (den e) cz) (Y i k) c))%R
         = sum_to (length (num e)) (fun i => act (nth i (num e) cz) (X i (S k)) c) /\
      (forall i, i < d -> Y i (S k) c = (Y i k c + dt e * Y (S i) (S k) c)%R) /\
      comp (nth k outs z) c = Y 0 (S k) c).
Proof.
  intros Hn Hd Hl FN FD Gx0 Gxs d.
  assert (Ln : 1 <= length (num e)) by (destruct (num e); [congruence|simpl; lia]).
  assert (Ld : 1 <= length (den e)) by (destruct (den e); [congruence|simpl; lia]).
  pose (e0 := Integ sig coef (num e) (den e) (repeat x0 (length (num e))) (repeat x0 (length (den e))) (dt e) (invdt e)).
  assert (E0 : initialize e x0 = Ok e0).
  { unfold EulerV_Model.initialize, e0. destruct (den e) as [|a l] eqn:Ed; [congruence|]. destruct (num e) eqn:En; [congruence|].
    rewrite last_cons in Hl. rewrite Hl. reflexivity. }
  assert (R0 : ready e0).
  { unfold ready, e0. simpl. rewrite !repeat_length. repeat (split; [lia|]). split; [|split; [|split]].
    - intros i Hi. apply FN, nth_In. exact Hi.
    - intros i Hi. replace (nth i (den e) cz) with (nth i (removelast (den e)) cz).
      + apply FD, nth_In. rewrite removelast_firstn_len, firstn_length. lia.
      + rewrite removelast_firstn_len. rewrite <- (firstn_skipn (pred (length (den e))) (den e)) at 3.
        rewrite app_nth1; [reflexivity|]. rewrite firstn_length. lia.
    - intros i Hi. rewrite nth_repeat_lt by exact Hi. exact Gx0.
    - intros i Hi. rewrite nth_repeat_lt by exact Hi. exact Gx0. }
  assert (G : forall xs e1 outs0, ready e1 -> (forall x, In x xs -> good x) ->
    exists ef outs (X Y : nat -> nat -> nat -> R),
      ofold step xs (e1, outs0) = Ok (ef, outs0 ++ outs) /\ length outs = length xs /\ (forall y, In y outs -> good y) /\
      (forall i c, X i 0 c = xin e1 i c) /\ (forall i c, Y i 0 c = yout e1 i c) /\
      (forall k c, k < length xs -> c < n ->
        X 0 (S k) c = comp (nth k xs z) c /\
        (forall i, S i < length (num e1) -> X (S i) (S k) c = ((X i (S k) c - X i k c) * invdt e1)%R) /\
        (Y (length (den e1) - 1)%nat (S k) c + sum_to (length (den e1) - 1) (fun i => act (nth i (den e1) cz) (Y i k) c))%R
           = sum_to (length (num e1)) (fun i => act (nth i (num e1) cz) (X i (S k)) c) /\
        (forall i, i < length (den e1) - 1 -> Y i (S k) c = (Y i k c + dt e1 * Y (S i) (S k) c)%R) /\
        comp (nth k outs z) c = Y 0 (S k) c)).
  { clear - add_ok sub_ok scale_ok mul_ok act_ext. induction xs as [|x xs IH]; intros e1 outs0 HR Gxs.
    - exists e1, [], (fun i _ => xin e1 i), (fun i _ => yout e1 i).
      rewrite app_nil_r. split; [reflexivity|]. split; [reflexivity|]. split; [intros ? []|]. split; [reflexivity|]. split; [reflexivity|]. intros k c Hk; simpl in Hk; lia.
    - destruct (generic_step e1 x HR (Gxs x (or_introl eq_refl))) as (e2 & y & E & HR2 & A & B & C & D & EQ).
      destruct (IH e2 (outs0 ++ [y]) HR2 ltac:(intros; apply Gxs; right; assumption)) as (ef & outs & X & Y & E2 & HL & HG & HX & HY & HK).
      assert (Gy : good y).
      { destruct EQ as (_ & _ & _ & _ & ->). apply HR2. destruct HR2 as (? & ? & ? & ? & _). lia. }
      exists ef, (y :: outs),
        (fun i k => match k with 0 => xin e1 i | S k => X i k end),
        (fun i k => match k with 0 => yout e1 i | S k => Y i k end).
      split; [|split; [simpl; lia|]].
      + cbn [ofold]. unfold EulerV_Model.step at 1. cbn [fst snd]. rewrite E. cbn [bind]. rewrite E2, <- app_assoc. reflexivity.
      + split; [intros y' [<-|H]; auto|]. split; [reflexivity|]. split; [reflexivity|].
        intros k c Hk Hc. destruct EQ as (Q1 & Q2 & Q3 & Q4 & Q5). destruct k as [|k].
        * split; [rewrite HX; apply Q1; exact Hc|]. split; [|split; [|split]].
          -- intros i Hi. rewrite !HX. apply Q2; assumption.
          -- rewrite HY, Q3 by exact Hc.
             rewrite (sum_to_ext (length (num e1)) (fun i => act (nth i (num e1) cz) (X i O) c)
               (fun i => act (nth i (num e1) cz) (xin e2 i) c)) by (intros; apply act_ext; [exact Hc|intros; apply HX]). lra.
          -- intros i Hi. rewrite !HY, Q4 by assumption. lra.
          -- simpl. rewrite HY, Q5. reflexivity.
        * simpl in Hk. destruct (HK k c ltac:(lia) Hc) as (K1 & K2 & K3 & K4 & K5).
          rewrite A, B, C, D in *.
          split; [exact K1|]. split; [exact K2|]. split; [exact K3|]. split; [exact K4|]. exact K5. }
  destruct (G xs e0 [] R0 Gxs) as (ef & outs & X & Y & E & HL & HG & HX & HY & HK).
  exists e0, ef, outs, X, Y. split; [exact E0|]. split; [exact E|]. split; [exact HL|]. split; [exact HG|].
  intros c Hc. split; [|split].
  - intros i Hi. rewrite HX. unfold xin, e0. simpl. rewrite nth_repeat_lt by exact Hi. reflexivity.
  - intros i Hi. rewrite HY. unfold yout, e0. simpl. rewrite nth_repeat_lt by (subst d; lia). reflexivity.
  - intros k Hk. exact (HK k c Hk Hc).
Qed.
End Generic.

(** * Vectors *)
Lemma vop_ok f n (a b : vec) : length a = n -> length b = n ->
  exists c, vop f a b = Ok c /\ length c = n /\ forall k, k < n -> nth k c 0%R = f (nth k a 0%R) (nth k b 0%R).
Proof.
  intros La Lb. unfold vop. rewrite La, Lb, Nat.eqb_refl. eexists. split; [reflexivity|]. split.
  - rewrite map_length, combine_length. lia.
  - intros k Hk. rewrite (nth_indep _ 0%R (f (fst (0%R, 0%R)) (snd (0%R, 0%R)))) by (rewrite map_length, combine_length; lia).
    rewrite (map_nth (fun p => f (fst p) (snd p))), combine_nth by lia. reflexivity.
Qed.

Lemma vscale_ok n (a : vec) r : length a = n -> length (vscale a r) = n /\ forall k, k < n -> nth k (vscale a r) 0%R = (nth k a 0 * r)%R.
Proof.
  intros La. unfold vscale. split; [rewrite map_length; exact La|].
  intros k Hk. rewrite (nth_indep _ 0%R ((fun x => x * r) 0)%R) by (rewrite map_length; lia).
  rewrite (map_nth (fun x => x * r)%R). reflexivity.
Qed.

(** C46, Vector and Matrix: with a transfer function of [n] x [n] matrices and inputs of size [n],
    there are sequences of vectors [X i k] (i-th derivative of the input at step k) and [Y i k]
    (i-th derivative of the output), all equal to the initial input at step 0, such that
    X^(i+1)(k+1) = (X^(i)(k+1) - X^(i)(k)) / dt,
    Y^(d)(k+1) + A_(d-1) Y^(d-1)(k) + ... + A_0 Y(k) = B_0 X(k+1) + ... + B_m X^(m)(k+1),
    Y^(i)(k+1) = Y^(i)(k) + dt Y^(i+1)(k+1), and the outputs are Y(1), Y(2), ... *)
Theorem euler_matrix_recurrence (e : integ vec mat) (n : nat) (x0 : vec) (xs : list vec) :
  num e <> [] -> den e <> [] -> isIdentity (last (den e) (Mat 0 0 (fun _ _ => 0%R))) = true ->
  (forall m, In m (num e) \/ In m (removelast (den e)) -> rows m = n /\ cols m = n) ->
  invdt e = (1 / dt e)%R ->
  length x0 = n -> (forall x, In x xs -> length x = n) ->
  let d := length (den e) - 1 in
  let A i j c := ent (nth i (den e) (Mat 0 0 (fun _ _ => 0%R))) j c in
  let B i j c := ent (nth i (num e) (Mat 0 0 (fun _ _ => 0%R))) j c in
  exists e0 ef outs (X Y : nat -> nat -> nat -> R),
    initialize_vm e x0 = Ok e0 /\ ofold step_vm xs (e0, []) = Ok (ef, outs) /\
    length outs = length xs /\ (forall y, In y outs -> length y = n) /\
    forall c, c < n ->
    (forall i, i < length (num e) -> X i 0 c = nth c x0 0%R) /\
    (forall i, i <= d -> Y i 0 c = nth c x0 0%R) /\
    (forall k, k < length xs ->
      X 0 (S k) c = nth c (nth k xs []) 0%R /\
      (forall i, S i < length (num e) -> X (S i) (S k) c = ((X i (S k) c - X i k c) / dt e)%R) /\
      (Y d (S k) c + sum_to d (fun i => sum_to n (fun j => A i c j * Y i k j)))%R
         = sum_to (length (num e)) (fun i => sum_to n (fun j => B i c j * X i (S k) j)%R) /\
      (forall i, i < d -> Y i (S k) c = (Y i k c + dt e * Y (S i) (S k) c)%R) /\
      nth c (nth k outs []) 0%R = Y 0 (S k) c).
Proof.
  intros Hn Hd Hl Hs Hi L0 Lx d A B.
  destruct (generic_recurrence vec mat (vop Rplus) (vop Rminus) vscale mv isIdentity n
    (fun v => length v = n) (fun m => rows m = n /\ cols m = n) (fun v k => nth k v 0%R)
    (fun m f c => sum_to n (fun j => ent m c j * f j)%R)
    ltac:(intros; apply vop_ok; assumption) ltac:(intros; apply vop_ok; assumption)
    ltac:(intros; apply vscale_ok; assumption)) with (z := @nil R) (cz := Mat 0 0 (fun _ _ => 0%R)) (e := e) (x0 := x0) (xs := xs)
    as (e0 & ef & outs & X & Y & E0 & E & HL & HG & HK); auto.
  - intros m v (Hr & Hc) Lv. unfold mv. rewrite Hc, Lv, Nat.eqb_refl. eexists. split; [reflexivity|]. split.
    + rewrite map_length, seq_length. exact Hr.
    + intros k Hk. rewrite Hr.
      rewrite (nth_indep _ 0%R ((fun i => sum_to n (fun j => ent m i j * nth j v 0)%R) 0)) by (rewrite map_length, seq_length; lia).
      rewrite (map_nth (fun i => sum_to n (fun j => ent m i j * nth j v 0)%R)), seq_nth by lia. reflexivity.
  - intros m f g k Hk Hfg. apply sum_to_ext. intros j Hj. rewrite Hfg by exact Hj. reflexivity.
  - exists e0, ef, outs, X, Y. split; [exact E0|]. split; [exact E|]. split; [exact HL|]. split; [exact HG|].
    intros c Hc. destruct (HK c Hc) as (K1 & K2 & K3). split; [exact K1|]. split; [exact K2|].
    intros k Hk. destruct (K3 k Hk) as (Q1 & Q2 & Q3 & Q4 & Q5). split; [exact Q1|].
    split; [intros i Hi'; rewrite Q2 by exact Hi'; rewrite Hi; unfold Rdiv; ring|]. auto.
Qed.

(** C46, Vector and double: every component follows the scalar transfer function. *)
Theorem euler_vector_recurrence (e : integ vec R) (n : nat) (x0 : vec) (xs : list vec) :
  num e <> [] -> den e <> [] -> last (den e) 0%R = 1%R -> invdt e = (1 / dt e)%R ->
  length x0 = n -> (forall x, In x xs -> length x = n) ->
  let d := length (den e) - 1 in
  exists e0 ef outs (X Y : nat -> nat -> nat -> R),
    initialize_vd e x0 = Ok e0 /\ ofold step_vd xs (e0, []) = Ok (ef, outs) /\
    length outs = length xs /\ (forall y, In y outs -> length y = n) /\
    forall c, c < n ->
    (forall i, i < length (num e) -> X i 0 c = nth c x0 0%R) /\
    (forall i, i <= d -> Y i 0 c = nth c x0 0%R) /\
    (forall k, k < length xs ->
      X 0 (S k) c = nth c (nth k xs []) 0%R /\
      (forall i, S i < length (num e) -> X (S i) (S k) c = ((X i (S k) c - X i k c) / dt e)%R) /\
      (Y d (S k) c + sum_to d (fun i => nth i (den e) 0 * Y i k c))%R
         = sum_to (length (num e)) (fun i => nth i (num e) 0 * X i (S k) c)%R /\
      (forall i, i < d -> Y i (S k) c = (Y i k c + dt e * Y (S i) (S k) c)%R) /\
      nth c (nth k outs []) 0%R = Y 0 (S k) c).
Proof.
  intros Hn Hd Hl Hi L0 Lx d.
  destruct (generic_recurrence vec R (vop Rplus) (vop Rminus) vscale (fun c a => Ok (map (Rmult c) a)) one_d n
    (fun v => length v = n) (fun _ => True) (fun v k => nth k v 0%R) (fun a f c => a * f c)%R
    ltac:(intros; apply vop_ok; assumption) ltac:(intros; apply vop_ok; assumption)
    ltac:(intros; apply vscale_ok; assumption)) with (z := @nil R) (cz := 0%R) (e := e) (x0 := x0) (xs := xs)
    as (e0 & ef & outs & X & Y & E0 & E & HL & HG & HK); auto.
  - intros a v _ Lv. eexists. split; [reflexivity|]. split; [rewrite map_length; exact Lv|].
    intros k Hk. rewrite (nth_indep _ 0%R (a * 0)%R) by (rewrite map_length; lia). apply map_nth.
  - intros a f g k Hk Hfg. rewrite Hfg by exact Hk. reflexivity.
  - unfold one_d. destruct (Req_EM_T _ _); [reflexivity|contradiction].
  - exists e0, ef, outs, X, Y. split; [exact E0|]. split; [exact E|]. split; [exact HL|]. split; [exact HG|].
    intros c Hc. destruct (HK c Hc) as (K1 & K2 & K3). split; [exact K1|]. split; [exact K2|].
    intros k Hk. destruct (K3 k Hk) as (Q1 & Q2 & Q3 & Q4 & Q5). split; [exact Q1|].
    split; [intros i Hi'; rewrite Q2 by exact Hi'; rewrite Hi; unfold Rdiv; ring|]. auto.
Qed.

(** The commands of the entity keep the inverse of the period up to date, so that the hypothesis on
    [invdt] of the theorems above always holds. *)
Inductive cmd (sig coef : Type) := Num (c : coef) | Den (c : coef) | PopNum | PopDen | Period (p : R) | Init (x : sig) | Eval (x : sig).
Arguments Num {sig coef}. Arguments Den {sig coef}. Arguments PopNum {sig coef}. Arguments PopDen {sig coef}.
Arguments Period {sig coef}. Arguments Init {sig coef}. Arguments Eval {sig coef}.
Definition exec (e : integ vec mat) (c : cmd vec mat) : outcome (integ vec mat) :=
  match c with
  | Num c => Ok (pushNumCoef e c) | Den c => Ok (pushDenomCoef e c)
  | PopNum => popNumCoef _ _ e | PopDen => popDenomCoef _ _ e
  | Period p => Ok (setSamplingPeriod e p)
  | Init x => initialize_vm e x
  | Eval x => let* (e', _) := integrate_vm e x in Ok e'
  end.

Lemma ofold_inv {S I} (P : S -> Prop) (f : S -> I -> outcome S) l s s' :
  (forall s i s', P s -> f s i = Ok s' -> P s') -> P s -> ofold f l s = Ok s' -> P s'.
Proof.
  intros Hf. revert s. induction l as [|i l IH]; intros s Hs E; simpl in E.
  - injection E as <-. exact Hs.
  - destruct (f s i) as [s1| |] eqn:E1; try discriminate. simpl in E. apply (IH s1); eauto.
Qed.

Theorem euler_matrix_period (l : list (cmd vec mat)) (e : integ vec mat) :
  ofold exec l integ_new = Ok e -> invdt e = (1 / dt e)%R.
Proof.
  apply (ofold_inv (fun e => invdt e = (1 / dt e)%R)); [|reflexivity].
  intros s c s' H E. destruct c; simpl in E.
  - injection E as <-. exact H.
  - injection E as <-. exact H.
  - unfold popNumCoef in E. destruct (_ =? _); [discriminate|]. injection E as <-. exact H.
  - unfold popDenomCoef in E. destruct (_ =? _); [discriminate|]. injection E as <-. exact H.
  - injection E as <-. reflexivity.
  - unfold initialize_vm, initialize in E. destruct (den s); [discriminate|]. destruct (num s); [discriminate|].
    destruct (isIdentity _); [|discriminate]. injection E as <-. exact H.
  - destruct (integrate_vm s x) as [[e' y]| |] eqn:E1; try discriminate. simpl in E. injection E as <-.
    unfold integrate_vm, integrate in E1.
    repeat match type of E1 with
    | bind ?m _ = Ok _ => let q := fresh "q" in destruct m as [q| |]; cbn [bind] in E1; [|discriminate..]
    | (let '(_, _) := ?q in _) = Ok _ => destruct q
    | (if ?b then _ else _) = Ok _ => destruct b; [discriminate|]
    end.
    injection E1 as <- _. exact H.
Qed.

(** Integrators with scalar coefficients start exactly when there are coefficients and the last one of
    the denominator is 1. *)
Theorem euler_vector_initialize (e : integ vec R) (x : vec) :
  (exists e0, initialize_vd e x = Ok e0) <-> num e <> [] /\ den e <> [] /\ last (den e) 0%R = 1%R.
Proof.
  unfold initialize_vd, initialize. destruct (den e) as [|a l].
  - split; [intros [? K]; discriminate|tauto].
  - destruct (num e) as [|b m]; [split; [intros [? K]; discriminate|tauto]|].
    assert (L : last (a :: l) 0%R = last l a).
    { clear. revert a. induction l as [|b l IH]; intros a; [reflexivity|]. change (last (a :: b :: l) 0%R) with (last (b :: l) 0%R).
      rewrite IH. destruct l; [reflexivity|]. cbn. clear. revert r. induction l as [|c l IH]; intros r; [reflexivity|]. apply IH. }
    rewrite L. unfold one_d. destruct (Req_EM_T (last l a) 1) as [E|E].
    + split; [|eauto]. intros _. repeat split; auto; discriminate.
    + split; [intros [? K]; discriminate|tauto].
Qed.

(** The coefficients are those pushed and not popped, in this order. *)
Theorem euler_matrix_coefficients (l : list (cmd vec mat)) (e e' : integ vec mat) :
  ofold exec l e = Ok e' ->
  let coefs (get : cmd vec mat -> option (option mat)) (init : list mat) :=
    fold_left (fun a c => match get c with Some (Some m) => a ++ [m] | Some None => removelast a | None => a end) l init in
  num e' = coefs (fun c => match c with Num m => Some (Some m) | PopNum => Some None | _ => None end) (num e) /\
  den e' = coefs (fun c => match c with Den m => Some (Some m) | PopDen => Some None | _ => None end) (den e).
Proof.
  cbn zeta. revert e. induction l as [|c l IH]; intros e E; simpl in E.
  - injection E as <-. auto.
  - destruct (exec e c) as [e1| |] eqn:E1; try discriminate. simpl in E. destruct (IH e1 E) as (A & B).
    simpl. rewrite A, B. clear A B IH E.
    cut (num e1 = (match c with Num m => num e ++ [m] | PopNum => removelast (num e) | _ => num e end) /\
         den e1 = (match c with Den m => den e ++ [m] | PopDen => removelast (den e) | _ => den e end)).
    { intros (-> & ->). destruct c; auto. }
    destruct c; simpl in E1.
    + injection E1 as <-. auto.
    + injection E1 as <-. auto.
    + unfold popNumCoef in E1. destruct (_ =? _); [discriminate|]. injection E1 as <-. auto.
    + unfold popDenomCoef in E1. destruct (_ =? _); [discriminate|]. injection E1 as <-. auto.
    + injection E1 as <-. auto.
    + unfold initialize_vm, initialize in E1. destruct (den e) eqn:Ed; [discriminate|]. destruct (num e) eqn:En; [discriminate|].
      destruct (isIdentity _); [|discriminate]. injection E1 as <-. simpl. auto.
    + destruct (integrate_vm e x) as [[e2 y]| |] eqn:E2; try discriminate. simpl in E1. injection E1 as <-.
      unfold integrate_vm, integrate in E2.
      repeat match type of E2 with
      | bind ?m _ = Ok _ => let q := fresh "q" in destruct m as [q| |]; cbn [bind] in E2; [|discriminate..]
      | (let '(_, _) := ?q in _) = Ok _ => destruct q
      | (if ?b then _ else _) = Ok _ => destruct b; [discriminate|]
      end.
      injection E2 as <- _. auto.
Qed.

(** The coefficients and the period may be changed between two evaluations: what the integrator
    remembers of its inputs and outputs is kept, and a change of coefficient keeps the period. *)
Theorem euler_matrix_memory (l : list (cmd vec mat)) (e e' : integ vec mat) :
  (forall c, In c l -> match c with Init _ | Eval _ => False | _ => True end) ->
  ofold exec l e = Ok e' ->
  inm e' = inm e /\ outm e' = outm e /\
  dt e' = fold_left (fun p c => match c with Period q => q | _ => p end) l (dt e).
Proof.
  revert e. induction l as [|c l IH]; intros e Hl E; simpl in E.
  - injection E as <-. auto.
  - destruct (exec e c) as [e1| |] eqn:E1; try discriminate. simpl in E.
    destruct (IH e1 (fun c H => Hl c (or_intror H)) E) as (A & B & C). simpl. rewrite A, B, C.
    specialize (Hl c (or_introl eq_refl)).
    destruct c; simpl in E1; try contradiction; try (injection E1 as <-; auto; fail).
    + unfold popNumCoef in E1. destruct (_ =? _); [discriminate|]. injection E1 as <-. auto.
    + unfold popDenomCoef in E1. destruct (_ =? _); [discriminate|]. injection E1 as <-. auto.
Qed.

(** The integrator B / s on vectors: the k-th output is the initial value plus the period times the
    sum of the inputs received, each multiplied by the matrix B. *)
Theorem euler_matrix_integrator (B I0 : mat) (n : nat) (p : R) (x0 : vec) (xs : list vec) :
  isIdentity I0 = true -> rows B = n -> cols B = n -> length x0 = n -> (forall x, In x xs -> length x = n) ->
  let e := setSamplingPeriod (pushDenomCoef (pushDenomCoef (pushNumCoef integ_new B) (Mat n n (fun _ _ => 0%R))) I0) p in
  exists e0 ef outs,
    initialize_vm e x0 = Ok e0 /\ ofold step_vm xs (e0, []) = Ok (ef, outs) /\ length outs = length xs /\
    forall k c, k < length xs -> c < n ->
      nth c (nth k outs []) 0%R
      = (nth c x0 0 + p * sum_to (S k) (fun t => sum_to n (fun j => ent B c j * nth j (nth t xs []) 0)))%R.
Proof.
  intros HI HR HC L0 Lx e.
  destruct (euler_matrix_recurrence e n x0 xs) as (e0 & ef & outs & X & Y & E0 & E & HL & HG & HK);
    try reflexivity; try discriminate; auto.
  - simpl. intros m [[<-|[]]|[<-|[]]]; auto.
  - exists e0, ef, outs. split; [exact E0|]. split; [exact E|]. split; [exact HL|].
    assert (G : forall k c, k <= length xs -> c < n ->
      Y 0 k c = (nth c x0 0 + p * sum_to k (fun t => sum_to n (fun j => ent B c j * nth j (nth t xs []) 0)))%R).
    { induction k as [|k IH]; intros c Hk Hc; destruct (HK c Hc) as (_ & K2 & K3).
      - rewrite K2 by (simpl; lia). simpl. lra.
      - destruct (K3 k ltac:(lia)) as (_ & _ & Q3 & Q4 & _). rewrite Q4 by (simpl; lia). rewrite IH by (lia || exact Hc).
        simpl in Q3. change (dt e) with p.
        assert (Z0 : sum_to n (fun j => 0 * Y O k j)%R = 0%R).
        { clear. induction n; simpl; [reflexivity|]. rewrite IHn. lra. }
        rewrite Z0 in Q3.
        rewrite (sum_to_ext n _ (fun j => ent B c j * nth j (nth k xs []) 0)%R) in Q3.
        + simpl. nra.
        + intros j Hj. destruct (HK j Hj) as (_ & _ & K3'). destruct (K3' k ltac:(lia)) as (-> & _). reflexivity. }
    intros k c Hk Hc. destruct (HK c Hc) as (_ & _ & K3). destruct (K3 k Hk) as (_ & _ & _ & _ & ->). apply G; [lia|exact Hc].
Qed.

(** The outputs have to be as many as the inputs: with rectangular numerators the first evaluation
    is undefined, since the outputs start with the value of the input. *)
Theorem euler_rectangular_refuted (m n : nat) (B A I0 : mat) (p : R) (x0 x : vec) :
  m <> n -> rows B = m -> cols B = n -> rows A = m -> cols A = m -> isIdentity I0 = true ->
  length x0 = n -> length x = n ->
  let e := setSamplingPeriod (pushDenomCoef (pushDenomCoef (pushNumCoef integ_new B) A) I0) p in
  exists e0, initialize_vm e x0 = Ok e0 /\ integrate_vm e0 x = UB.
Proof.
  intros Hmn HB1 HB2 HA1 HA2 HI L0 L1 e. eexists. split.
  - unfold initialize_vm, initialize, e. simpl. rewrite HI. reflexivity.
  - unfold integrate_vm, integrate. simpl. unfold mv at 1. rewrite HB2, L1, Nat.eqb_refl. simpl.
    unfold ofor_range. simpl. unfold mv. rewrite HA2, L0.
    destruct (Nat.eqb_spec m n); [contradiction|]. reflexivity.
Qed.

(** A leading coefficient close to the identity is accepted and used as if it were the identity. *)
Theorem euler_leading_coefficient_refuted :
  exists (M : mat) (x0 : vec), rows M = 1 /\ cols M = 1 /\ ent M 0 0 <> 1%R /\ length x0 = 1 /\
    is_ok (initialize_vm (pushDenomCoef (pushNumCoef integ_new (Mat 1 1 (fun _ _ => 1%R))) M) x0) = true.
Proof.
  exists (Mat 1 1 (fun _ _ => 1 + / 10 ^ 13)%R), [0%R]. simpl. split; [reflexivity|]. split; [reflexivity|].
  split; [simpl; lra|]. split; [reflexivity|].
  unfold initialize_vm, initialize. simpl. unfold isIdentity. simpl. unfold Rleb, prec.
  destruct (Rle_dec _ _) as [H|H]; [reflexivity|]. exfalso. apply H.
  rewrite (Rabs_pos_eq (1 + _ - 1)) by lra. rewrite (Rabs_pos_eq (1 + _)) by lra. rewrite Rmin_right by lra. lra.
Qed.

(** The tolerance on a leading coefficient of size 1. *)
Theorem euler_leading_coefficient (x : R) : (1 <= x)%R ->
  (isIdentity (Mat 1 1 (fun _ _ => x)) = true <-> (x <= 1 + / 1000000000000)%R).
Proof.
  intros Hx. unfold isIdentity. simpl. unfold Rleb, prec. rewrite (Rabs_pos_eq x) by lra. rewrite Rabs_pos_eq by lra.
  rewrite Rmin_right by lra. replace (10 ^ 12)%R with 1000000000000%R by ring.
  destruct (Rle_dec _ _); simpl; split; intros; try reflexivity; try discriminate; lra.
Qed.

(** The hypotheses are met: a coupled system of two components, three inputs. *)
Example euler_matrix_case :
  let e := setSamplingPeriod (pushDenomCoef (pushDenomCoef (pushNumCoef integ_new (Mat 2 2 (fun i j => INR (i + 2 * j))))
             (Mat 2 2 (fun _ _ => 0%R))) (Mat 2 2 (fun i j => if i =? j then 1 else 0)%R)) (1 / 2) in
  exists e0 ef outs, initialize_vm e [1; 2]%R = Ok e0 /\ ofold step_vm [[1; 0]; [0; 1]; [1; 1]]%R (e0, []) = Ok (ef, outs) /\
    length outs = 3 /\ nth 1 (nth 2 outs []) 0%R = (2 + 1 / 2 * 8)%R.
Proof.
  intros e.
  destruct (euler_matrix_integrator (Mat 2 2 (fun i j => INR (i + 2 * j))) (Mat 2 2 (fun i j => if i =? j then 1 else 0)%R)
    2 (1 / 2) [1; 2]%R [[1; 0]; [0; 1]; [1; 1]]%R) as (e0 & ef & outs & E0 & E & HL & HK); try reflexivity.
  - unfold isIdentity. simpl. unfold Rleb, prec.
    repeat (destruct (Rle_dec _ _) as [?|Hn]; [|exfalso; apply Hn;
      rewrite ?Rminus_diag_eq, ?Rabs_R0, ?Rabs_R1 by reflexivity; try rewrite Rmin_left by lra; lra]). reflexivity.
  - simpl. intros x [<-|[<-|[<-|[]]]]; reflexivity.
  - exists e0, ef, outs. repeat (split; [assumption|]). rewrite HK by (simpl; lia). simpl. lra.
Qed.

Print Assumptions euler_matrix_recurrence.
Print Assumptions euler_vector_recurrence.
Print Assumptions euler_matrix_period.
Print Assumptions euler_matrix_integrator.
Print Assumptions euler_matrix_coefficients.
Print Assumptions euler_rectangular_refuted.
Print Assumptions euler_leading_coefficient_refuted.
Print Assumptions euler_matrix_memory.
Print Assumptions euler_leading_coefficient.
Print Assumptions euler_vector_initialize.

(** The coefficients: each list is what was pushed and not taken back; taking back from an empty list is undefined. *)
Inductive coefcmd := AddNum (c : mat) | AddDen (c : mat) | DropNum | DropDen.
Definition as_cmd (c : coefcmd) : cmd vec mat := match c with AddNum c => Num c | AddDen c => Den c | DropNum => PopNum | DropDen => PopDen end.
(** [None]: more taken back than pushed. The last pushed is the head. *)
Fixpoint stacks (l : list coefcmd) (n d : list mat) : option (list mat * list mat) :=
  match l with
  | [] => Some (n, d)
  | AddNum c :: r => stacks r (c :: n) d
  | AddDen c :: r => stacks r n (c :: d)
  | DropNum :: r => match n with [] => None | _ :: n => stacks r n d end
  | DropDen :: r => match d with [] => None | _ :: d => stacks r n d end
  end.
Theorem euler_coefficients (l : list coefcmd) :
  match stacks l [] [] with
  | Some (n, d) => exists e, ofold exec (map as_cmd l) integ_new = Ok e /\ num e = rev n /\ den e = rev d
  | None => ofold exec (map as_cmd l) integ_new = UB
  end.
Proof.
  assert (G : forall l n d (e : integ vec mat), num e = rev n -> den e = rev d ->
    match stacks l n d with
    | Some (n, d) => exists e', ofold exec (map as_cmd l) e = Ok e' /\ num e' = rev n /\ den e' = rev d
    | None => ofold exec (map as_cmd l) e = UB
    end).
  { clear l. induction l as [|[c|c| |] l IH]; intros n d e Hn Hd; cbn [stacks map as_cmd ofold exec bind].
    - exists e. auto.
    - apply IH; [cbn; now rewrite Hn|exact Hd].
    - apply IH; [exact Hn|cbn; now rewrite Hd].
    - unfold popNumCoef. rewrite Hn, rev_length. destruct n as [|x n]; [reflexivity|]. cbn [length Nat.eqb bind rev]. apply IH; cbn; [apply removelast_last|exact Hd].
    - unfold popDenomCoef. rewrite Hd, rev_length. destruct d as [|x d]; [reflexivity|]. cbn [length Nat.eqb bind rev]. apply IH; cbn; [exact Hn|apply removelast_last]. }
  apply (G l [] [] integ_new); reflexivity.
Qed.
Print Assumptions euler_coefficients.
