(** Model of tasks: src/task/task.cpp, task-pd.cpp, task-unilateral.cpp,
    task-conti.cpp, task-command.h.

    Numbers are a parameter with the operations the code applies to them, so the
    model holds for doubles with their rounding.  [g] stands for the content of
    memory that was allocated but not initialised.  The buffer given to a compute
    function is what the signal held before. *)
From Coq Require Import String Ascii List Arith Lia ZArith Bool.
From Verif Require Import Base Flags_Model Bound_Model.
Import ListNotations.

Section Task.
Variable num : Type.
Variables zero g : num.
Variable opp : num -> num.
Variables add sub mul div : num -> num -> num.

(** ** Error: task.cpp:147-203 *)

(** task.cpp:187-191, the growing loop.  [error] has size [dimError]; its content is
    reset each time it grows.  [fuel] bounds the number of doublings; running out of it
    is [None] and never happens (Task_Proofs.grow_some). *)
Fixpoint grow (fuel : nat) (need : nat) (error : list num) : option (list num) :=
  if length error <? need then
    match fuel with
    | 0 => None
    | S f => grow f need (repeat zero (2 * length error))
    end
  else Some error.

(** task.cpp:193-195: [error(cursor++) = partial(k)] *)
Fixpoint write_at (cursor : nat) (partial error : list num) : outcome (list num) :=
  match partial with
  | [] => Ok error
  | x :: r => let* e := vset error cursor x in write_at (S cursor) r e
  end.

(** task.cpp:176-198, body for one feature. *)
Definition error_step (st : nat * list num) (partial : list num) : outcome (nat * list num) :=
  let '(cursor, error) := st in
  match grow (cursor + length partial) (cursor + length partial) error with
  | None => UB
  | Some e1 =>
      let* e2 := write_at cursor partial e1 in
      Ok (cursor + length partial, e2)
  end.

(** task.cpp:147-203.  [features] are the errors of the features. *)
Definition computeError (buffer : list num) (features : list (list num)) : outcome (list num) :=
  match features with
  | [] => Throw "EMPTY_LIST"
  | _ =>
      let e0 := if length buffer =? 0 then [zero] else buffer in
      let* (cursor, e) := ofold error_step features (0, e0) in
      Ok (vresize e cursor g)
  end.

(** ** Time derivative: task.cpp:205-223.  Writing a segment outside is UB. *)
Definition dot_step (st : nat * list num) (partial : list num) : outcome (nat * list num) :=
  let '(cursor, res) := st in
  if length res <? cursor + length partial then UB
  else let* r := write_at cursor partial res in Ok (cursor + length partial, r).

Definition computeErrorTimeDerivative (error : list num) (dots : list (list num))
  : outcome (list num) :=
  let* (_, r) := ofold dot_step dots (0, repeat g (length error)) in Ok r.

(** ** Reference: task.cpp:225-246 *)
Fixpoint minus_all (ref : list (MultiBound num)) (de : list num) (k : num -> num)
  : outcome (list (MultiBound num)) :=
  match ref with
  | [] => Ok []
  | b :: r =>
      match de with
      | [] => UB
      | d :: de' =>
          let* v := getSingleBound b in
          let* rest := minus_all r de' k in
          Ok (mb_single zero (sub v (k d)) :: rest)
      end
  end.

Definition computeTaskExponentialDecrease (error : list num) (gain : num)
    (withDerivative : bool) (de : list num) : outcome (list (MultiBound num)) :=
  let ref := map (fun e => mb_single zero (mul (opp e) gain)) error in
  if withDerivative then minus_all ref de (fun d => d) else Ok ref.

(** ** TaskPD: task-pd.cpp:57-73 (state previousError, result errorDot) and 75-90. *)
Fixpoint map2 {A B C} (f : A -> B -> C) (a : list A) (b : list B) : list C :=
  match a, b with x :: a', y :: b' => f x y :: map2 f a' b' | _, _ => [] end.
Definition pd_errorDot (previousError errCur : list num) : list num * list num :=
  (errCur,
   if length previousError =? length errCur then map2 sub errCur previousError
   else repeat zero (length errCur)).
Definition pd_task (error : list num) (gain : num) (withDerivative : bool) (de : list num)
    (beta : num) (errorDot : list num) : outcome (list (MultiBound num)) :=
  let* t := computeTaskExponentialDecrease error gain withDerivative de in
  minus_all t errorDot (fun d => mul beta d).

(** ** TaskUnilateral: task-unilateral.cpp:58-79 *)
Fixpoint unilateral (position refInf refSup : list num) (dt : num)
  : outcome (list (MultiBound num)) :=
  match position with
  | [] => Ok []
  | p :: ps =>
      match refInf, refSup with
      | i :: is, s :: ss =>
          let* r := unilateral ps is ss dt in
          Ok (mb_double zero (div (sub i p) dt) (div (sub s p) dt) :: r)
      | _, _ => UB
      end
  end.

(** ** Jacobian: task.cpp:248-312 *)

(** An Eigen matrix. *)
Record mat := mkMat { rows : nat; cols : nat; coef : nat -> nat -> num }.
(** Its rows as lists. *)
Definition rows_of (m : mat) : list (list num) :=
  map (fun i => map (fun j => coef m i j) (seq 0 (cols m))) (seq 0 (rows m)).

(** [J.resize(r, c)]: content lost when the shape changes. *)
Definition mresize (m : mat) (r c : nat) : mat :=
  if (rows m =? r) && (cols m =? c) then m else mkMat r c (fun _ _ => g).
(** [J.conservativeResize(r, c)] *)
Definition mcresize (m : mat) (r c : nat) : mat :=
  mkMat r c (fun i j => if (i <? rows m) && (j <? cols m) then coef m i j else g).
(** [J(i, j) = x] *)
Definition mset (m : mat) (i j : nat) (x : num) : outcome mat :=
  if (i <? rows m) && (j <? cols m) then
    Ok (mkMat (rows m) (cols m)
          (fun i' j' => if (i' =? i) && (j' =? j) then x else coef m i' j'))
  else UB.

(** task.cpp:289-292 *)
Fixpoint jgrow (fuel need nbc : nat) (dimJ : nat) (J : mat) : option (nat * mat) :=
  if dimJ <=? need then
    match fuel with
    | 0 => None
    | S f => jgrow f need nbc (2 * dimJ) (mcresize J (2 * dimJ) nbc)
    end
  else Some (dimJ, J).

(** task.cpp:296-304 *)
Definition jwrite (cursor : nat) (P : mat) (nbc : nat) (J : mat) : outcome mat :=
  ofor_range 0 nbc (fun kc J =>
    ofor_range 0 (rows P) (fun k J => mset J (cursor + k) kc (coef P k kc)) J) J.

(** task.cpp:267-306, one feature.  State: cursorJ, dimJ, nbc, J.  Line 284 swaps the
    arguments of resize. *)
Definition jac_step (st : nat * nat * nat * mat) (P : mat) : outcome (nat * nat * nat * mat) :=
  let '(cursor, dimJ, nbc, J) := st in
  let* (nbc, J) :=
    if nbc =? 0 then Ok (cols P, mresize J (cols P) dimJ)
    else if cols P =? nbc then Ok (nbc, J)
    else Throw "NON_ADEQUATE_FEATURES" in
  match jgrow (S (cursor + rows P)) (cursor + rows P) nbc dimJ J with
  | None => UB
  | Some (dimJ, J) =>
      let* J := jwrite cursor P nbc J in
      Ok (cursor + rows P, dimJ, nbc, J)
  end.

Definition computeJacobian (buffer : mat) (features : list mat) : outcome mat :=
  match features with
  | [] => Throw "EMPTY_LIST"
  | _ =>
      let '(dimJ, J) := if rows buffer =? 0 then (1, mresize buffer 1 (cols buffer))
                        else (rows buffer, buffer) in
      let* (cursor, _, nbc, J) := ofold jac_step features (0, dimJ, cols buffer, J) in
      Ok (mcresize J cursor nbc)
  end.

(** ** TaskConti: task-conti.cpp:40-94, with its time reference.  [dtgain] is
    exp((timeRef - timecurr) * mu / 200), [one] the constant 1.  The wrong size of q0
    executes [throw;] without a current exception, which terminates the program: [UB]
    here.  [timeRef] : None is TIME_REF_TO_BE_SET; a negative reference
    (TIME_REF_UNSIGNIFICANT) falls back to the exponential decrease. *)
Variable one : num.
Variable dtgain : Z -> num.
Definition dot (a b : list num) : num := fold_left add (map2 mul a b) zero.
Definition conti (error : list num) (lambda : num) (J : mat) (q0 : list num)
    (timeRef : option Z) (timecurr : Z) : outcome (option Z * list (MultiBound num)) :=
  if negb (length q0 + 6 =? cols J) then UB
  else
    let deref := map (fun i => dot (map (fun j => coef J i j) (seq 6 (cols J - 6))) q0)
                     (seq 0 (rows J)) in
    let tr := match timeRef with None => timecurr | Some t => t end in
    if (tr <? 0)%Z then
      Ok (Some tr, map (fun e => mb_single zero (mul (opp lambda) e)) error)
    else
      let cg := dtgain (tr - timecurr) in
      let gain := mul (sub cg one) lambda in
      if length deref =? length error then
        Ok (Some tr, map2 (fun e d => mb_single zero (add (mul e gain) (mul d cg))) error deref)
      else UB.

End Task.
Arguments mkMat {num}. Arguments rows {num}. Arguments cols {num}. Arguments coef {num}.
Arguments rows_of {num}.

(** ** Control selection: task.cpp:133-139, initial value task.cpp:63. *)
Inductive selcmd := SetSel (f : Flags) | AddSel (f : Flags) | ClearSel.
Definition sel_exec (s : Flags) (c : selcmd) : Flags :=
  match c with
  | SetSel f => f
  | AddSel f => and_assign s f
  | ClearSel => of_bool false
  end.
Definition sel_init : Flags := of_bool true.

(** ** Feature list: task.cpp:108-131.  State: featureList and the dependencies of the
    error signal added by features (task.cpp:111, 127).  removeDependency removes every
    occurrence. *)
Notation feature := nat (only parsing).
Record flist := mkFL { featureList : list feature; errorDeps : list feature }.
Definition add_feature (t : flist) (f : feature) : flist :=
  mkFL (featureList t ++ [f]) (errorDeps t ++ [f]).
Definition clear_features (t : flist) : flist :=
  mkFL [] (fold_left (fun d f => List.remove Nat.eq_dec f d) (featureList t) (errorDeps t)).
Inductive flcmd := AddF (f : feature) | ClearF.
Definition fl_exec (t : flist) (c : flcmd) : flist :=
  match c with AddF f => add_feature t f | ClearF => clear_features t end.

(** task-command.h:36-46 *)
Definition list_features (name : feature -> string) (t : flist) : string :=
  (fold_left (fun r f => r ++ "'" ++ name f ++ "',") (featureList t) "[" ++ "]")%string.
