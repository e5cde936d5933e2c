(** Selection, stacking, convolution and comparison operators of src/matrix/operator.hh.
    Vectors are lists, matrices carry their sizes.  The arithmetic on [int] and
    Eigen's Index is taken without overflow; asserts are compiled out, so that what they
    would catch is undefined behaviour. *)
From Coq Require Import String Ascii List Arith Lia ZArith Bool.
From Verif Require Import Base Variadic_Model.
Import ListNotations.
Local Open Scope nat_scope.
Local Open Scope list_scope.

Record matrix (num : Type) := mkmat { mrows : nat; mcols : nat; ment : nat -> nat -> num }.
Arguments mkmat {num}. Arguments mrows {num}. Arguments mcols {num}. Arguments ment {num}.

Section Sel.
  Context {num : Type}.
  Variable junk : num.

  (** m.segment(R, n): inside or undefined. *)
  Definition segment_of (m : list num) (r n : Z) : outcome (list num) :=
    if ((0 <=? r) && (0 <=? n) && (r + n <=? Z.of_nat (length m)))%Z
    then Ok (firstn (Z.to_nat n) (skipn (Z.to_nat r) m)) else UB.

  (** VectorSelecter: members idxs and size, operator.hh:78-81, 108. *)
  Record selecter := mksel { idxs : list (Z * Z); ssize : Z }.
  Definition selecter0 := mksel [] 0.

  (** VectorSelecter::setBounds, operator.hh:83-86. *)
  Definition setBounds (m M : Z) (s : selecter) := mksel [(m, (M - m)%Z)] (M - m).
  (** VectorSelecter::addBounds, operator.hh:87-90. *)
  Definition addBounds (m M : Z) (s : selecter) :=
    mksel (idxs s ++ [(m, (M - m)%Z)]) (ssize s + (M - m)).

  (** VectorSelecter::operator(), operator.hh:65-76; the components of the resized result
      are unspecified ([junk]) until they are written. *)
  Definition selecterOp (s : selecter) (m : list num) : outcome (list num) :=
    if (ssize s <? 0)%Z then UB else
    let* (_, res) := ofold (fun st x =>
        let '(r, res) := st in
        let* v := segment_of m (fst x) (snd x) in
        let* res' := assign_segment res r (snd x) v in
        Ok ((r + snd x)%Z, res'))
      (idxs s) (0%Z, repeat junk (Z.to_nat (ssize s))) in
    Ok res.

  (** v(i) with a signed index. *)
  Definition zget {A} (v : list A) (i : Z) : outcome A :=
    if (i <? 0)%Z then UB else vget v (Z.to_nat i).

  (** VectorComponent::operator(), operator.hh:113-116; the index is not initialised by
      the constructor ([None]). *)
  Definition componentOp (index : option Z) (m : list num) : outcome num :=
    match index with Some i => zget m i | None => UB end.

  Definition mat_get (m : matrix num) (i j : Z) : outcome num :=
    if ((0 <=? i) && (i <? Z.of_nat (mrows m)) && (0 <=? j) && (j <? Z.of_nat (mcols m)))%Z
    then Ok (ment m (Z.to_nat i) (Z.to_nat j)) else UB.

  (** for (int i = lo; i < hi; ++i), as the list of the values of i. *)
  Definition zrange (lo hi : Z) : list Z :=
    map (fun k => (lo + Z.of_nat k)%Z) (seq 0 (Z.to_nat (hi - lo))).

  Definition fset (f : nat -> nat -> num) (i j : nat) (x : num) : nat -> nat -> num :=
    fun a b => if (a =? i) && (b =? j) then x else f a b.

  (** MatrixSelector::operator(), operator.hh:142-148.  A negative size is undefined. *)
  Definition matrixSelectorOp (imin imax jmin jmax : Z) (m : matrix num) : outcome (matrix num) :=
    if ((imax - imin <? 0) || (jmax - jmin <? 0))%Z then UB else
    let* f := ofold (fun f i =>
        ofold (fun f j => let* x := mat_get m i j in
                          Ok (fset f (Z.to_nat (i - imin)) (Z.to_nat (j - jmin)) x))
              (zrange jmin jmax) f)
      (zrange imin imax) (fun _ _ => junk) in
    Ok (mkmat (Z.to_nat (imax - imin)) (Z.to_nat (jmax - jmin)) f).

  (** MatrixColumnSelector::operator(), operator.hh:185-191. *)
  Definition matrixColumnOp (imin imax jcol : Z) (m : matrix num) : outcome (list num) :=
    if (imax - imin <? 0)%Z then UB else
    ofold (fun res i => let* x := mat_get m i jcol in vset res (Z.to_nat (i - imin)) x)
      (zrange imin imax) (repeat junk (Z.to_nat (imax - imin))).

  (** v(i) = x with a signed index. *)
  Definition zset (v : list num) (i : Z) (x : num) : outcome (list num) :=
    if (i <? 0)%Z then UB else vset v (Z.to_nat i) x.

  (** VectorStack::operator(), operator.hh:599-613. *)
  Definition vectorStackOp (v1min v1max v2min v2max : Z) (v1 v2 : list num) : outcome (list num) :=
    let v1size := (v1max - v1min)%Z in
    let v2size := (v2max - v2min)%Z in
    if (v1size + v2size <? 0)%Z then UB else
    let* res1 := ofold (fun res i => let* x := zget v1 (i + v1min) in zset res i x)
      (zrange 0 v1size) (repeat junk (Z.to_nat (v1size + v2size))) in
    ofold (fun res i => let* x := zget v2 (i + v2min) in zset res (v1size + i) x)
      (zrange 0 v2size) res1.
End Sel.

Section Conv.
  Context {num : Type}.
  Variables (zero : num) (add mul : num -> num -> num).

  (** Inner loop of ConvolutionTemporal::convolution, operator.hh:681-683. *)
  Definition conv_add (f2 : matrix num) (j : nat) (s_tau res : list num) : list num :=
    for_range 0 (mrows f2)
      (fun i r => upd r i (add (nth i r zero) (mul (ment f2 i j) (nth i s_tau zero)))) res.

  Fixpoint conv_loop (f2 : matrix num) (j : nat) (f1 : list (list num)) (res : list num)
    : list num :=
    match f1 with
    | [] => res
    | s_tau :: r =>
        if negb (length s_tau =? mrows f2) then res
        else conv_loop f2 (S j) r (conv_add f2 j s_tau res)
    end.

  (** ConvolutionTemporal::convolution, operator.hh:667-686.  The sample read at index
      (i, j) exists: sizes are tested on lines 671 and 680. *)
  Definition convolution (f1 : list (list num)) (f2 : matrix num) (res : list num) : list num :=
    if mcols f2 <? length f1 then res
    else conv_loop f2 0 f1 (repeat zero (mrows f2)).

  (** ConvolutionTemporal::operator(), operator.hh:687-693: memory and result. *)
  Definition convolutionOp (v1 : list num) (m2 : matrix num) (st : list (list num) * list num)
    : list (list num) * list num :=
    let (memory, res) := st in
    let memory := firstn (mcols m2) (v1 :: memory) in
    (memory, convolution memory m2 res).
End Conv.

(** MatrixComparison::operator(), operator.hh:726-735, on matrices stored as the list of
    their coefficients; sizes must agree. *)
Definition matrixComparisonOp {num} (lt le : num -> num -> bool) (any equal : bool)
  (a b : list num) : outcome bool :=
  if length a =? length b then
    let c := map (fun p => if equal then le (fst p) (snd p) else lt (fst p) (snd p)) (combine a b) in
    Ok (if any then existsb (fun x => x) c else forallb (fun x => x) c)
  else UB.

(** WeightedAdder::operator(), operator.hh:786-790, and Substraction, 586-589. *)
Definition weightedAdderOp {num} (add mul : num -> num -> num) (g1 g2 : num) (a b : list num)
  : outcome (list num) :=
  let res := map (fun x => mul x g1) a in
  if length res =? length b then
    Ok (map (fun p => add (fst p) (mul g2 (snd p))) (combine res b)) else UB.
Definition substractionOp {num} (sub : num -> num -> num) (a b : list num) : outcome (list num) :=
  if length a =? length b then Ok (map (fun p => sub (fst p) (snd p)) (combine a b)) else UB.
