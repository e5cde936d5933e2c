(** Model of features: src/feature/feature-abstract.cpp, feature-generic.cpp,
    feature-posture.cpp, feature-joint-limits.cpp, feature-visual-point.cpp, feature-1d.cpp.

    [num] and its operations are parameters; [g] is the content of uninitialised memory.
    A matrix is the list of its rows.  A reference that is not set or a signal that is not
    plugged is [None].  Debug assertions are compiled out. *)
From Coq Require Import String Ascii List Arith Lia ZArith Bool.
From Verif Require Import Base Flags_Model.
Import ListNotations.

Section Feature.
Variable num : Type.
Variables zero one g : num.
Variable opp : num -> num.
Variables add sub mul div : num -> num -> num.

(** The loop "for i in [0,n): if (fl(i)) res(curr++) = f(i)" shared by the features. *)
Definition collect_step (fl : Flags) (f : nat -> outcome num) (st : nat * list num) (i : nat)
  : outcome (nat * list num) :=
  let '(curr, res) := st in
  let* b := at_ fl (Z.of_nat i) in
  if b then
    let* v := f i in
    let* r := vset res curr v in
    Ok (S curr, r)
  else Ok (curr, res).
Definition collect (fl : Flags) (f : nat -> outcome num) (n : nat) (res : list num)
  : outcome (list num) :=
  let* (_, r) := ofold (collect_step fl f) (seq 0 n) (0, res) in Ok r.

(** The loop "dim = 0; for i in [0,n): if (fl(i)) dim++". *)
Definition count_step (fl : Flags) (dim : nat) (i : nat) : outcome nat :=
  let* b := at_ fl (Z.of_nat i) in Ok (if b then S dim else dim).
Definition count_flags (fl : Flags) (n : nat) : outcome nat :=
  ofold (count_step fl) (seq 0 n) 0.

(** ** FeatureGeneric *)

(** feature-generic.cpp:64-77.  [dimensionDefault] is kept from the first access; state and
    result.  The loop compares an unsigned index: same thing for sizes. *)
Definition generic_dimension (dimensionDefault : nat) (fl : Flags) (err : list num)
  : outcome (nat * nat) :=
  let dd := if dimensionDefault =? 0 then length err else dimensionDefault in
  let* dim := count_flags fl dd in
  Ok (dd, dim).

(** feature-generic.cpp:79-117; [dim] is the value of the dimension signal. *)
Definition generic_error (fl : Flags) (dim : nat) (err : list num) (ref : option (list num))
  : outcome (list num) :=
  let res := repeat g dim in
  if length err <? dim then Throw "UNCOMPATIBLE_SIZE"
  else match ref with
       | Some errDes =>
           if length errDes <? dim then Throw "UNCOMPATIBLE_SIZE"
           else collect fl (fun i => let* a := vget err i in let* b := vget errDes i in Ok (sub a b))
                  (length err) res
       | None => collect fl (vget err) (length err) res
       end.

(** feature-generic.cpp:119-138.  The loop runs until [dim] rows are copied; reading a row
    outside is UB; [fuel] bounds the indices scanned: running out of it is UB here and
    does not happen when [dim] comes from [generic_dimension] (Feature_Proofs). *)
Fixpoint generic_jac_loop (fl : Flags) (Jac : list (list num)) (fuel i missing : nat)
  : outcome (list (list num)) :=
  match missing with
  | 0 => Ok []
  | S m =>
      match fuel with
      | 0 => UB
      | S f =>
          let* b := at_ fl (Z.of_nat i) in
          if b then
            let* row := vget Jac i in
            let* rest := generic_jac_loop fl Jac f (S i) m in
            Ok (row :: rest)
          else generic_jac_loop fl Jac f (S i) missing
      end
  end.
Definition generic_jacobian (fl : Flags) (dim : nat) (Jac : list (list num)) (fuel : nat)
  : outcome (list (list num)) := generic_jac_loop fl Jac fuel 0 dim.

(** ** FeatureAbstract::computeErrorDot, feature-abstract.cpp:95-124.  [errdotDes]: derivative
    of the reference when there is a reference and its errordotSIN is plugged. *)
Definition abstract_errordot (fl : Flags) (dim : nat) (errdotDes : option (list num))
  : outcome (list num) :=
  match errdotDes with
  | Some d =>
      if length d <? dim then Throw "UNCOMPATIBLE_SIZE"
      else collect fl (fun i => let* x := vget d i in Ok (opp x)) (length d) (repeat g dim)
  | None => Ok (repeat zero dim)
  end.

(** ** FeaturePosture *)

(** feature-posture.cpp:35-42: activeDofs_, nbActiveDofs_ and the constant jacobian. *)
Record posture := mkPosture { active : list bool; nbActive : nat; pjac : list (list num) }.
Definition posture_init : posture := mkPosture [] 0 [].

(** feature-posture.cpp:157-167: the matrix with a 1 at (index, i) for the index-th active
    dof i. *)
Fixpoint select_rows (dim : nat) (i : nat) (act : list bool) : list (list num) :=
  match act with
  | [] => []
  | b :: r =>
      if b then upd (repeat zero dim) i one :: select_rows dim (S i) r
      else select_rows dim (S i) r
  end.

(** feature-posture.cpp:121-168; [dim], [dimPosture] are the sizes of the state and of the
    posture when the command is called.  nbActiveDofs_-- on an active dof cannot wrap
    (Feature_Props).  An exception leaves the state as returned. *)
Definition selectDof (p : posture) (dim dimPosture dofId : nat) (control : bool)
  : outcome unit * posture :=
  if negb (dim =? dimPosture) then (Throw "runtime_error", p)
  else
    let p1 := if length (active p) =? dim then p
              else mkPosture (repeat false dim) 0 (pjac p) in
    if dim <=? dofId then (Throw "TOOLS", p1)
    else
      let cur := nth dofId (active p1) false in
      let act := if Bool.eqb cur control then active p1 else upd (active p1) dofId control in
      let nb := if Bool.eqb cur control then nbActive p1
                else if control then S (nbActive p1) else nbActive p1 - 1 in
      (Ok tt, mkPosture act nb (select_rows dim 0 act)).

(** feature-posture.cpp:84-97 and 105-114: same loop, the flags being activeDofs_. *)
Definition posture_error (p : posture) (state post : list num) : outcome (list num) :=
  collect (mkFlags (active p) false)
    (fun i => let* a := vget state i in let* b := vget post i in Ok (sub a b))
    (length (active p)) (repeat g (nbActive p)).
Definition posture_errordot (p : posture) (postureDot : list num) : outcome (list num) :=
  collect (mkFlags (active p) false)
    (fun i => let* a := vget postureDot i in Ok (opp a))
    (length (active p)) (repeat g (nbActive p)).

(** ** FeatureJointLimits *)

(** feature-joint-limits.cpp:92-107 *)
Definition jl_width (upper lower : list num) : outcome (list num) :=
  ofold (fun acc i => let* u := vget upper i in let* l := vget lower i in
                      Ok (acc ++ [sub u l])) (seq 0 (length upper)) [].
(** feature-joint-limits.cpp:160-193.  [two] is 2; [dim] the dimension signal, computed by
    [count_flags] on the size of the upper limits (77-90). *)
Definition jl_error (two : num) (fl : Flags) (dim : nat) (q lower width : list num)
  : outcome (list num) :=
  collect fl (fun i => let* x := vget q i in let* l := vget lower i in let* w := vget width i in
                       Ok (sub (mul (div (sub x l) w) two) one))
    (length q) (repeat g dim).
(** feature-joint-limits.cpp:112-156; [small w] is fabs(w) <= 1e-3.  The rows are those of the
    zero matrix with one entry set. *)
Definition jl_jac_entry (small : num -> bool) (w : num) : num :=
  if small w then one else div one w.

(** ** FeatureVisualPoint *)

(** feature-visual-point.cpp:110-130, the two rows of L. *)
Definition vp_row_x (x y Z : num) : list num :=
  [div (opp one) Z; zero; div x Z; mul x y; opp (add one (mul x x)); y].
Definition vp_row_y (x y Z : num) : list num :=
  [zero; div (opp one) Z; div y Z; add one (mul y y); mul (opp x) y; opp x].
(** feature-visual-point.cpp:79-134; [neg Z] is Z < 0, [tiny Z] is fabs(Z) < 1e-6. *)
Definition vp_interaction (neg tiny : num -> bool) (fl : Flags) (x y Z : num)
  : outcome (list (list num)) :=
  if neg Z then Throw "BAD_INIT"
  else if tiny Z then Throw "BAD_INIT"
  else
    let* b0 := at_ fl 0 in let* b1 := at_ fl 1 in
    Ok ((if b0 then [vp_row_x x y Z] else []) ++ (if b1 then [vp_row_y x y Z] else [])).
(** feature-visual-point.cpp:146-168 *)
Definition vp_error (fl : Flags) (xy : num * num) (ref : option (num * num)) : outcome (list num) :=
  match ref with
  | None => Throw "BAD_INIT"
  | Some r =>
      let* b0 := at_ fl 0 in let* b1 := at_ fl 1 in
      Ok ((if b0 then [sub (fst xy) (fst r)] else []) ++ (if b1 then [sub (snd xy) (snd r)] else []))
  end.

(** ** Feature1D: feature-1d.cpp:63-85.  [half] is .5; the jacobian is a list of rows. *)
Fixpoint dotp (a b : list num) : num :=
  match a, b with x :: a', y :: b' => add (mul x y) (dotp a' b') | _, _ => zero end.
Definition f1d_error (half : num) (err : list num) : list num := [mul (dotp err err) half].
Definition f1d_jacobian (err : list num) (Jac : list (list num)) (cols : nat) : list num :=
  map (fun j => dotp err (map (fun row => nth j row zero) Jac)) (seq 0 cols).

End Feature.
Arguments collect {num}. Arguments generic_jac_loop {num}.
Arguments mkPosture {num}. Arguments active {num}. Arguments nbActive {num}. Arguments pjac {num}.
Arguments posture_init {num}.

Definition jl_jacobian {num} (zero one : num) (div : num -> num -> num) (small : num -> bool)
    (fl : Flags) (dim : nat) (q width : list num) : outcome (list (list num)) :=
  let n := length q in
  collect fl (fun i => let* w := vget width i in
                       Ok (upd (repeat zero n) i (jl_jac_entry num one div small w)))
    n (repeat (repeat zero n) dim).
