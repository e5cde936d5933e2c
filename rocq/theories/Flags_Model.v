(** Model of [Flags] : src/sot/flags.cpp, include/sot/core/flags.hh. *)
From Coq Require Import String Ascii List Arith Lia ZArith Bool.
From Verif Require Import Base.
Import ListNotations.

(** flags.hh:33-36.  [flags] is the std::vector<bool>; a vector is modelled as a
    list; sizes are assumed to fit in [int] (the cast at flags.cpp:64). *)
Record Flags := mkFlags { flags : list bool; outOfRangeFlag : bool }.

(** flags.cpp:30 *)
Definition of_bool (b : bool) : Flags := mkFlags [] b.

(** flags.cpp:32-49.  [flags(strlen)] is initialised with [false]; a blank leaves
    that [false]; any other character throws.  The string model has no embedded
    NUL, as for a C string. *)
Fixpoint parse_ctor (s : string) : outcome (list bool) :=
  match s with
  | EmptyString => Ok []
  | String c r =>
      if Ascii.eqb c "0" then let* l := parse_ctor r in Ok (false :: l)
      else if Ascii.eqb c "1" then let* l := parse_ctor r in Ok (true :: l)
      else if Ascii.eqb c " " then let* l := parse_ctor r in Ok (false :: l)
      else Throw "invalid_argument"
  end.
Definition of_string (s : string) : outcome Flags :=
  let* l := parse_ctor s in Ok (mkFlags l false).

(** flags.cpp:51-52 *)
Definition of_vector (v : list bool) : Flags := mkFlags v false.

(** flags.cpp:54-59.  The loop returns at the first set bit. *)
Fixpoint any_loop (l : list bool) : bool :=
  match l with
  | [] => false
  | b :: r => if b then true else any_loop r
  end.
Definition to_bool (f : Flags) : bool :=
  if outOfRangeFlag f then true else any_loop (flags f).

(** flags.cpp:63-66.  [i] is a signed int: a negative index passes the test and
    reads outside the vector, which is UB. *)
Definition at_ (f : Flags) (i : Z) : outcome bool :=
  if (i <? Z.of_nat (length (flags f)))%Z then
    if (i <? 0)%Z then UB else vget (flags f) (Z.to_nat i)
  else Ok (outOfRangeFlag f).

(** flags.cpp:69 *)
Definition add (f : Flags) (b : bool) : Flags :=
  mkFlags (flags f ++ [b]) (outOfRangeFlag f).

(** flags.cpp:72-74 *)
Definition set_ (f : Flags) (idx : nat) : Flags :=
  if idx <? length (flags f) then mkFlags (upd (flags f) idx true) (outOfRangeFlag f) else f.

(** flags.cpp:76-78 *)
Definition unset (f : Flags) (idx : nat) : Flags :=
  if idx <? length (flags f) then mkFlags (upd (flags f) idx false) (outOfRangeFlag f) else f.

(** flags.cpp:84-89 *)
Definition not_ (f : Flags) : Flags :=
  mkFlags (map negb (flags f)) (negb (outOfRangeFlag f)).

(** flags.cpp:103-112.  Resize when the other one is longer, then two index loops;
    all accesses are in range after the resize, hence the total [nth]/[upd]. *)
Definition and_assign (f1 f2 : Flags) : Flags :=
  let n2 := length (flags f2) in
  let l0 := if length (flags f1) <? n2
            then vresize (flags f1) n2 (outOfRangeFlag f1) else flags f1 in
  let l1 := for_range 0 n2 (fun i l =>
              upd l i (andb (nth i l false) (nth i (flags f2) false))) l0 in
  let l2 := for_range n2 (length l1) (fun i l =>
              upd l i (andb (nth i l false) (outOfRangeFlag f2))) l1 in
  mkFlags l2 (andb (outOfRangeFlag f1) (outOfRangeFlag f2)).

(** flags.cpp:114-123 *)
Definition or_assign (f1 f2 : Flags) : Flags :=
  let n2 := length (flags f2) in
  let l0 := if length (flags f1) <? n2
            then vresize (flags f1) n2 (outOfRangeFlag f1) else flags f1 in
  let l1 := for_range 0 n2 (fun i l =>
              upd l i (orb (nth i l false) (nth i (flags f2) false))) l0 in
  let l2 := for_range n2 (length l1) (fun i l =>
              upd l i (orb (nth i l false) (outOfRangeFlag f2))) l1 in
  mkFlags l2 (orb (outOfRangeFlag f1) (outOfRangeFlag f2)).

(** flags.cpp:91-95 and 97-101 *)
Definition and_ (f1 f2 : Flags) : Flags := and_assign f1 f2.
Definition or_ (f1 f2 : Flags) : Flags := or_assign f1 f2.

(** flags.cpp:126-129 *)
Fixpoint print_bits (l : list bool) : string :=
  match l with
  | [] => EmptyString
  | b :: r => String (if b then "1" else "0")%char (print_bits r)
  end.
Definition print (f : Flags) : string := print_bits (flags f).

(** flags.cpp:131-150.  The stream is its remaining characters; [is.get(c).good()]
    is false at the end of the stream.  On an invalid character the exception
    leaves the bits read so far in the target: the result is (status, target).
    [outOfRangeFlag] of the target is not touched. *)
Fixpoint read_loop (s : string) (acc : list bool) : outcome unit * list bool :=
  match s with
  | EmptyString => (Ok tt, acc)
  | String c r =>
      if Ascii.eqb c "0" then read_loop r (acc ++ [false])
      else if Ascii.eqb c "1" then read_loop r (acc ++ [true])
      else if Ascii.eqb c " " then read_loop r acc
      else (Throw "invalid_argument", acc)
  end.
Definition read (s : string) (target : Flags) : outcome unit * Flags :=
  let '(o, l) := read_loop s [] in (o, mkFlags l (outOfRangeFlag target)).

(** Edits, for histories. *)
Inductive edit := EAdd (b : bool) | ESet (i : nat) | EUnset (i : nat).
Definition apply_edit (f : Flags) (e : edit) : Flags :=
  match e with EAdd b => add f b | ESet i => set_ f i | EUnset i => unset f i end.
