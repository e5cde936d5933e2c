(** Model of task bounds: src/task/multi-bound.cpp, include/sot/core/multi-bound.hh.

    The type of numbers [num] and its stream output and input are parameters: the
    code only copies numbers.  A stream is the list of characters left to read.
    Reading past the end of a stream, or a number that does not parse, is [UB]:
    the code goes on with an indeterminate character or a zeroed value. *)
From Coq Require Import String Ascii List Arith Lia ZArith Bool.
From Verif Require Import Base.
Import ListNotations.

Section Bound.
Variable num : Type.
Variable zero : num.
(** [os << double] and [is >> double]: what is read and what is left. *)
Variable print_num : num -> list ascii.
Variable read_num : list ascii -> option (num * list ascii).
(** [os << size_t] and [is >> unsigned]. *)
Variable print_nat : nat -> list ascii.
Variable read_nat : list ascii -> option (nat * list ascii).

(** multi-bound.hh:36-37 *)
Inductive mode := MODE_SINGLE | MODE_DOUBLE.
Inductive supinf := BOUND_SUP | BOUND_INF.

(** multi-bound.hh:40-43 *)
Record MultiBound := mkMB {
  bmode : mode;
  boundSingle : num;
  boundSup : num;
  boundInf : num;
  boundSupSetup : bool;
  boundInfSetup : bool
}.

(** multi-bound.cpp:16-22 *)
Definition mb_single (x : num) : MultiBound := mkMB MODE_SINGLE x zero zero false false.
(** multi-bound.cpp:24-30 *)
Definition mb_double (xi xs : num) : MultiBound := mkMB MODE_DOUBLE zero xs xi true true.
(** multi-bound.cpp:32-38 *)
Definition mb_half (x : num) (b : supinf) : MultiBound :=
  match b with
  | BOUND_SUP => mkMB MODE_DOUBLE zero x zero true false
  | BOUND_INF => mkMB MODE_DOUBLE zero zero x false true
  end.

(** multi-bound.cpp:49-55 *)
Definition getSingleBound (m : MultiBound) : outcome num :=
  match bmode m with
  | MODE_SINGLE => Ok (boundSingle m)
  | MODE_DOUBLE => Throw "BOUND_TYPE"
  end.

(** multi-bound.cpp:56-78 *)
Definition getDoubleBound (m : MultiBound) (b : supinf) : outcome num :=
  match bmode m with
  | MODE_SINGLE => Throw "BOUND_TYPE"
  | MODE_DOUBLE =>
      match b with
      | BOUND_SUP => if boundSupSetup m then Ok (boundSup m) else Throw "BOUND_TYPE"
      | BOUND_INF => if boundInfSetup m then Ok (boundInf m) else Throw "BOUND_TYPE"
      end
  end.

(** multi-bound.cpp:79-91 *)
Definition getDoubleBoundSetup (m : MultiBound) (b : supinf) : outcome bool :=
  match bmode m with
  | MODE_SINGLE => Throw "BOUND_TYPE"
  | MODE_DOUBLE =>
      Ok (match b with BOUND_SUP => boundSupSetup m | BOUND_INF => boundInfSetup m end)
  end.

(** multi-bound.cpp:92-108 *)
Definition setDoubleBound (m : MultiBound) (b : supinf) (v : num) : MultiBound :=
  let m1 := match bmode m with
            | MODE_DOUBLE => m
            | MODE_SINGLE =>
                mkMB MODE_DOUBLE (boundSingle m) (boundSup m) (boundInf m) false false
            end in
  match b with
  | BOUND_INF => mkMB (bmode m1) (boundSingle m1) (boundSup m1) v (boundSupSetup m1) true
  | BOUND_SUP => mkMB (bmode m1) (boundSingle m1) v (boundInf m1) true (boundInfSetup m1)
  end.

(** multi-bound.cpp:109-124 *)
Definition unsetDoubleBound (m : MultiBound) (b : supinf) : MultiBound :=
  match bmode m with
  | MODE_SINGLE => mkMB MODE_DOUBLE (boundSingle m) (boundSup m) (boundInf m) false false
  | MODE_DOUBLE =>
      match b with
      | BOUND_INF => mkMB MODE_DOUBLE (boundSingle m) (boundSup m) (boundInf m) (boundSupSetup m) false
      | BOUND_SUP => mkMB MODE_DOUBLE (boundSingle m) (boundSup m) (boundInf m) false (boundInfSetup m)
      end
  end.

(** multi-bound.cpp:125-128 *)
Definition setSingleBound (m : MultiBound) (v : num) : MultiBound :=
  mkMB MODE_SINGLE v (boundSup m) (boundInf m) (boundSupSetup m) (boundInfSetup m).

(** Commands on one bound, for histories. *)
Inductive bcmd :=
| BSetSingle (v : num)
| BSetDouble (b : supinf) (v : num)
| BUnset (b : supinf).
Definition bexec (m : MultiBound) (c : bcmd) : MultiBound :=
  match c with
  | BSetSingle v => setSingleBound m v
  | BSetDouble b v => setDoubleBound m b v
  | BUnset b => unsetDoubleBound m b
  end.

(** Streams. *)
Definition chars (s : string) : list ascii := list_ascii_of_string s.
(** [is.get(c)] *)
Definition get_char (s : list ascii) : outcome (ascii * list ascii) :=
  match s with c :: r => Ok (c, r) | [] => UB end.
(** [is >> val] *)
Definition get_num (s : list ascii) : outcome (num * list ascii) :=
  match read_num s with Some p => Ok p | None => UB end.
(** [is.get(c2, 3)]: two characters; fewer, or a newline, is not modelled. *)
Definition get_two (s : list ascii) : outcome (ascii * ascii * list ascii) :=
  match s with a :: b :: r => Ok (a, b, r) | _ => UB end.

(** multi-bound.cpp:145-171 *)
Definition print_bound (m : MultiBound) : list ascii :=
  match bmode m with
  | MODE_SINGLE => print_num (boundSingle m)
  | MODE_DOUBLE =>
      (chars "(" ++
       (if boundInfSetup m then print_num (boundInf m) else chars "--") ++
       chars "," ++
       (if boundSupSetup m then print_num (boundSup m) else chars "--") ++
       chars ")")%list
  end.

(** One side of a double bound, multi-bound.cpp:180-193 and 202-213. *)
Definition read_side (b : supinf) (m : MultiBound) (s : list ascii)
  : outcome (MultiBound * list ascii) :=
  let* (a, c, r) := get_two s in
  if (a =? "-")%char && (c =? "-")%char then Ok (unsetDoubleBound m b, r)
  else
    let* (v, r') := get_num s in
    Ok (setDoubleBound m b v, r').

(** [is.get(c); if (c != check) throw] *)
Definition expect (check : ascii) (s : list ascii) : outcome (list ascii) :=
  let* (c, r) := get_char s in
  if (c =? check)%char then Ok r else Throw "PARSER_MULTI_BOUND".

(** multi-bound.cpp:173-230 *)
Definition read_bound (m : MultiBound) (s : list ascii) : outcome (MultiBound * list ascii) :=
  let* (c, r) := get_char s in
  if (c =? "(")%char then
    let* (m1, r1) := read_side BOUND_INF m r in
    let* r2 := expect "," r1 in
    let* (m2, r3) := read_side BOUND_SUP m1 r2 in
    let* r4 := expect ")" r3 in
    Ok (m2, r4)
  else
    let* (v, r') := get_num s in
    Ok (setSingleBound m v, r').

(** multi-bound.cpp:232-240 *)
Fixpoint print_list (first : bool) (v : list MultiBound) : list ascii :=
  match v with
  | [] => []
  | m :: r => ((if first then [] else chars ",") ++ print_bound m ++ print_list false r)%list
  end.
Definition print_bounds (v : list MultiBound) : list ascii :=
  (chars "[" ++ print_nat (length v) ++ chars "](" ++ print_list true v ++ chars ")")%list.

(** The loop multi-bound.cpp:251-258; [v] holds the elements still to be read. *)
Fixpoint read_list (v : list MultiBound) (s : list ascii) : outcome (list MultiBound * list ascii) :=
  match v with
  | [] => Ok ([], s)
  | m :: rest =>
      let* (m', s1) := read_bound m s in
      let* s2 := expect (match rest with [] => ")" | _ => "," end)%char s1 in
      let* (rest', s3) := read_list rest s2 in
      Ok (m' :: rest', s3)
  end.

(** multi-bound.cpp:242-261 *)
Definition read_bounds (v : list MultiBound) (s : list ascii) : outcome (list MultiBound * list ascii) :=
  let* s1 := expect "[" s in
  let* (n, s2) := match read_nat s1 with Some p => Ok p | None => UB end in
  let v1 := vresize v n (mb_single zero) in
  let* s3 := expect "]" s2 in
  let* s4 := expect "(" s3 in
  read_list v1 s4.

End Bound.
Arguments bmode {num}. Arguments boundSingle {num}. Arguments boundSup {num}.
Arguments boundInf {num}. Arguments boundSupSetup {num}. Arguments boundInfSetup {num}.
Arguments mkMB {num}. Arguments getSingleBound {num}. Arguments getDoubleBound {num}.
Arguments getDoubleBoundSetup {num}. Arguments setDoubleBound {num}. Arguments unsetDoubleBound {num}.
Arguments setSingleBound {num}. Arguments bexec {num}. Arguments mb_single {num}.
Arguments mb_double {num}. Arguments mb_half {num}.
Arguments BSetSingle {num}. Arguments BSetDouble {num}. Arguments BUnset {num}.
Arguments print_bound {num}. Arguments read_bound {num}. Arguments print_bounds {num}.
Arguments read_bounds {num}. Arguments print_list {num}. Arguments read_list {num}.
Arguments read_side {num}. Arguments get_num {num}.
