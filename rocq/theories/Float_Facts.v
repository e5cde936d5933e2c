(** IEEE binary64, as the standard library's [spec_float] with precision 53 and emax 1024, and
    the few facts about it the theorems use.  Comparisons are those of the C++ operators:
    false as soon as one side is NaN. *)
From Coq Require Import ZArith Lia Bool SpecFloat.
Local Open Scope Z_scope.

Notation float := spec_float.
Notation fltb := SFltb.
Notation fleb := SFleb.
Notation fadd := (SFadd 53 1024).
Notation fsub := (SFsub 53 1024).
Notation fmul := (SFmul 53 1024).

Definition fnan (x : float) : bool := match x with S754_nan => true | _ => false end.
Definition ffinite (x : float) : bool :=
  match x with S754_zero _ | S754_finite _ _ _ => true | _ => false end.
Definition fnonzero (x : float) : bool := match x with S754_zero _ => false | _ => true end.

(** Literals. *)
Definition f0 : float := S754_zero false.
Definition f1 : float := S754_finite false 4503599627370496 (-52).
Definition f2 : float := S754_finite false 4503599627370496 (-51).
Definition fhalf : float := S754_finite false 4503599627370496 (-53).
Definition finf : float := S754_infinity false.
Definition fninf : float := S754_infinity true.

Lemma fleb_refl x : fnan x = false -> fleb x x = true.
Proof.
  intros H. unfold SFleb, SFcompare.
  destruct x as [s|s| |s m e]; try discriminate; try (destruct s; reflexivity).
  rewrite Z.compare_refl, Pos.compare_cont_refl. destruct s; reflexivity.
Qed.

Lemma fcompare_nan_l x : SFcompare S754_nan x = None.
Proof. reflexivity. Qed.
Lemma fcompare_nan_r x : SFcompare x S754_nan = None.
Proof. destruct x; reflexivity. Qed.

Lemma fcompare_some x y : fnan x = false -> fnan y = false -> exists c, SFcompare x y = Some c.
Proof.
  intros Hx Hy. unfold SFcompare.
  destruct x as [[]|[]| |[] m e], y as [[]|[]| |[] m' e']; try discriminate;
    try (destruct (Z.compare e e')); eauto.
Qed.

Lemma fcompare_antisym x y :
  SFcompare y x = match SFcompare x y with Some c => Some (CompOpp c) | None => None end.
Proof.
  unfold SFcompare.
  destruct x as [[]|[]| |[] m e], y as [[]|[]| |[] m' e']; try reflexivity;
    rewrite (Z.compare_antisym e e'); destruct (Z.compare e e'); cbn; try reflexivity;
    change (Pos.compare_cont Eq m' m) with (Pos.compare m' m);
    change (Pos.compare_cont Eq m m') with (Pos.compare m m');
    rewrite (Pos.compare_antisym m m'); destruct (Pos.compare m m'); reflexivity.
Qed.

(** For numbers that are not NaN, "not less" is "greater or equal". *)
Lemma fltb_fleb x y : fnan x = false -> fnan y = false -> fltb x y = negb (fleb y x).
Proof.
  intros Hx Hy. unfold SFltb, SFleb. rewrite (fcompare_antisym x y).
  destruct (fcompare_some x y Hx Hy) as [c ->]. destruct c; reflexivity.
Qed.

Lemma fltb_fleb_weak x y : fltb x y = true -> fleb x y = true.
Proof. unfold SFltb, SFleb. destruct (SFcompare x y) as [[]|]; auto; discriminate. Qed.

Lemma fleb_nan_l x : fleb S754_nan x = false.
Proof. reflexivity. Qed.
Lemma fleb_nan_r x : fleb x S754_nan = false.
Proof. unfold SFleb. rewrite fcompare_nan_r. reflexivity. Qed.
Lemma fleb_not_nan x y : fleb x y = true -> fnan x = false /\ fnan y = false.
Proof.
  intros H. split; [destruct x|destruct y]; auto.
  rewrite fleb_nan_r in H. discriminate.
Qed.

(** Between two finite numbers there are only finite numbers. *)
Lemma fleb_finite l x u : fleb l x = true -> fleb x u = true -> ffinite l = true -> ffinite u = true ->
  ffinite x = true.
Proof.
  intros H1 H2 Hl Hu. destruct x as [s|s| |s m e]; try discriminate; try reflexivity.
  destruct s.
  - destruct l as [[]|[]| |[] m e]; try discriminate.
  - destruct u as [[]|[]| |[] m e]; try discriminate.
Qed.

(** *** Rounding never produces NaN *)
Definition shr_nonneg (r : shr_record) : Prop := 0 <= shr_m r.
Lemma shr_1_nonneg r : shr_nonneg r -> shr_nonneg (shr_1 r).
Proof.
  unfold shr_nonneg. destruct r as [m r s]. unfold shr_1. cbn [shr_m]. intros H.
  destruct m as [|[p|p|]|[p|p|]]; cbn [shr_m]; lia.
Qed.
Lemma iter_pos_nonneg p : forall r, shr_nonneg r -> shr_nonneg (iter_pos shr_1 p r).
Proof.
  induction p; intros r H; cbn [iter_pos]; auto using shr_1_nonneg.
Qed.
Lemma shr_fst_nonneg mrs e n : shr_nonneg mrs -> shr_nonneg (fst (shr mrs e n)).
Proof. intros H. unfold shr. destruct n; cbn [fst]; auto. apply iter_pos_nonneg. exact H. Qed.
Lemma shr_fexp_nonneg prec emax m e l : 0 <= m -> shr_nonneg (fst (shr_fexp prec emax m e l)).
Proof.
  intros H. unfold shr_fexp. apply shr_fst_nonneg. unfold shr_record_of_loc.
  destruct l as [|[]]; exact H.
Qed.
Lemma round_nearest_even_nonneg m l : 0 <= m -> 0 <= round_nearest_even m l.
Proof.
  intros H. unfold round_nearest_even. destruct l as [|[]]; try lia.
  destruct (Z.even m); lia.
Qed.
Lemma round_aux_not_nan prec emax s m e l : 0 <= m -> fnan (binary_round_aux prec emax s m e l) = false.
Proof.
  intros H. unfold binary_round_aux.
  pose proof (shr_fexp_nonneg prec emax m e l H) as H1.
  destruct (shr_fexp prec emax m e l) as [r1 e1]. cbn [fst] in H1.
  pose proof (shr_fexp_nonneg prec emax (round_nearest_even (shr_m r1) (loc_of_shr_record r1)) e1 loc_Exact
    (round_nearest_even_nonneg _ _ H1)) as H2.
  destruct (shr_fexp prec emax (round_nearest_even (shr_m r1) (loc_of_shr_record r1)) e1 loc_Exact) as [r2 e2].
  cbn [fst] in H2. unfold shr_nonneg in H2. destruct (shr_m r2); [reflexivity| |lia].
  destruct (Z.leb e2 (emax - prec)); reflexivity.
Qed.
Lemma round_not_nan prec emax s m e : fnan (binary_round prec emax s m e) = false.
Proof.
  unfold binary_round. destruct (shl_align m e (fexp prec emax (Z.pos (digits2_pos m) + e))) as [m1 e1].
  apply round_aux_not_nan. lia.
Qed.

Lemma fadd_not_nan x y : ffinite x = true -> fnan y = false -> fnan (fadd x y) = false.
Proof.
  intros Hx Hy. unfold SFadd.
  destruct x as [sx|sx| |sx mx ex], y as [sy|sy| |sy my ey]; try discriminate; try reflexivity.
  - destruct (Bool.eqb sx sy); reflexivity.
  - unfold binary_normalize. destruct (cond_Zopp sx _ + cond_Zopp sy _); try reflexivity;
      apply round_not_nan.
Qed.
Lemma fmul_not_nan x y : ffinite y = true -> fnonzero y = true -> fnan x = false -> fnan (fmul x y) = false.
Proof.
  intros Hf Hz Hx. unfold SFmul.
  destruct y as [sy|sy| |sy my ey]; try discriminate.
  destruct x as [sx|sx| |sx mx ex]; try discriminate; try reflexivity.
  apply round_aux_not_nan. lia.
Qed.

(** Order of the numbers that are not NaN: class, then exponent, then mantissa. *)
Definition fkey (x : float) : Z * Z * Z :=
  match x with
  | S754_infinity true => (-2, 0, 0)
  | S754_finite true m e => (-1, -e, Z.neg m)
  | S754_zero _ => (0, 0, 0)
  | S754_finite false m e => (1, e, Z.pos m)
  | S754_infinity false => (2, 0, 0)
  | S754_nan => (0, 0, 0)
  end.
Definition keyle (a b : Z * Z * Z) : Prop :=
  let '(a1, a2, a3) := a in let '(b1, b2, b3) := b in
  a1 < b1 \/ a1 = b1 /\ (a2 < b2 \/ a2 = b2 /\ a3 <= b3).
Lemma fleb_key x y : fnan x = false -> fnan y = false -> (fleb x y = true <-> keyle (fkey x) (fkey y)).
Proof.
  intros Hx Hy. unfold SFleb, SFcompare.
  destruct x as [[]|[]| |[] m e], y as [[]|[]| |[] m' e']; try discriminate; cbn [fkey keyle];
    try (split; [intros; try discriminate; lia|intros; try reflexivity; exfalso; lia]);
    change (Pos.compare_cont Eq m m') with (Pos.compare m m');
    destruct (Z.compare_spec e e'); try destruct (Pos.compare_spec m m'); cbn [CompOpp];
    (split; [intros; try discriminate; lia|intros; try reflexivity; exfalso; lia]).
Qed.
Lemma fleb_trans x y z : fleb x y = true -> fleb y z = true -> fleb x z = true.
Proof.
  intros H1 H2. destruct (fleb_not_nan _ _ H1) as [A B], (fleb_not_nan _ _ H2) as [_ C].
  rewrite fleb_key in * by assumption.
  destruct (fkey x) as [[x1 x2] x3], (fkey y) as [[y1 y2] y3], (fkey z) as [[z1 z2] z3].
  unfold keyle in *. lia.
Qed.
