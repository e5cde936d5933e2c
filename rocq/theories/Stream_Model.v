(** Contiifstream (include/sot/core/contiifstream.hh, src/debug/contiifstream.cpp): follows a file
    that another program extends, line by line; and History (src/dynamic_graph/sot/core/utils/history.py):
    records the state of an entity and restores it. *)
From Coq Require Import String List Arith Lia ZArith Bool Ascii.
From Verif Require Import Base.
Import ListNotations.
Local Open Scope list_scope.

Definition text := list ascii.
Definition NL : ascii := "010"%char.
Definition NUL : ascii := "000"%char.
Definition is_nl (c : ascii) : bool := Ascii.eqb c NL.
Definition is_nul (c : ascii) : bool := Ascii.eqb c NUL.

(** contiifstream.hh:39 BUFFER_SIZE *)
Definition BUFFER_SIZE : nat := 256.

Record stream := Stream { cursor : nat; first : bool; reader : list text }.

(** contiifstream.cpp:15-16 constructor *)
Definition conti : stream := Stream 0 true [].

(** istream::get(buffer, n): extracts at most n - 1 characters, stops before a newline or at the end of
    the file; what was extracted, what is left. *)
Fixpoint get_line (n : nat) (t : text) : text * text :=
  match n with
  | O => ([], t)
  | S n => match t with
           | [] => ([], [])
           | c :: r => if is_nl c then ([], t) else let '(l, q) := get_line n r in (c :: l, q)
           end
  end.

(** std::string line(buffer): up to the first NUL. *)
Fixpoint c_string (l : text) : text :=
  match l with
  | [] => []
  | c :: r => if is_nul c then [] else c :: c_string r
  end.

(** contiifstream.cpp:29-42 the loop.  [pos]: position of [rest] in the file.  When the end of the file was reached while
    extracting (libstdc++ looks at the next character also when the buffer is full), eofbit is set: tellg gives -1 (its sentry fails), cursor becomes 0 after the
    increment, and the following get extracts nothing, which ends the loop.  [fuel]: every turn extracts
    one character at least, so the length of the text is enough. *)
Fixpoint read (fuel : nat) (pos : nat) (rest : text) (s : stream) (res : bool) : stream * bool :=
  match fuel with
  | O => (s, res)
  | S fuel =>
      let '(l, q) := get_line (BUFFER_SIZE - 1) rest in
      match l with
      | [] => (s, res)
      | _ =>
          let rd := if first s then reader s else reader s ++ [c_string l] in
          match q with
          | [] => (Stream 0 (first s) rd, true)
          | _ :: q => read fuel (pos + length l + 1) q (Stream (pos + length l + 1) (first s) rd) true
          end
      end
  end.

(** contiifstream.cpp:20-47 loop.  [file]: contents, or None when the file cannot be opened. *)
Definition loop (file : option text) (s : stream) : stream * bool :=
  match file with
  | None => (Stream (cursor s) false (reader s), false)
  | Some t =>
      let rest := skipn (cursor s) t in
      let '(s, res) := read (S (length rest)) (cursor s) rest s false in
      (Stream (cursor s) false (reader s), res)
  end.

(** contiifstream.hh:56 ready; contiifstream.cpp:49-53 next: an empty list is undefined behaviour. *)
Definition ready (s : stream) : bool := match reader s with [] => false | _ => true end.
Definition next (s : stream) : outcome (stream * text) :=
  match reader s with
  | [] => UB
  | l :: r => Ok (Stream (cursor s) (first s) r, l)
  end.

(** contiifstream.hh:47-50 open *)
Definition reopen (s : stream) : stream := Stream 0 (first s) (reader s).

(** The file and its reader: another program appends text; the user calls loop and next. *)
Inductive scmd := Append (t : text) | Loop | Next.
Record sst := Sst { file : text; str : stream; delivered : list text }.
Definition sstart (t : text) : sst := Sst t conti [].
Definition sstep (s : sst) (c : scmd) : outcome sst :=
  match c with
  | Append t => Ok (Sst (file s ++ t) (str s) (delivered s))
  | Loop => Ok (Sst (file s) (fst (loop (Some (file s)) (str s))) (delivered s))
  | Next => let* r := next (str s) in Ok (Sst (file s) (fst r) (delivered s ++ [snd r]))
  end.

(* ------------------------------------------------------------------ *)
(** ** History *)
Section Hist.
Context {V : Type}.
Record hist := Hist { h_q : list V; h_qdot : list V; h_freq : Z }.

(** history.py:9-18 __init__ *)
Definition history (freq : Z) : hist := Hist [] [] freq.

(** history.py:20-24 record: time, position and velocity of the entity.  The zmp part (25-28) is not
    modelled.  A frequency of zero raises ZeroDivisionError. *)
Definition record (i : Z) (q qdot : V) (h : hist) : outcome hist :=
  if (h_freq h =? 0)%Z then Throw "ZeroDivisionError"
  else if (i mod h_freq h =? 0)%Z then Ok (Hist (h_q h ++ [q]) (h_qdot h ++ [qdot]) (h_freq h))
  else Ok h.

(** Python list indexing *)
Definition pyget {A} (l : list A) (i : Z) : outcome A :=
  let j := if (i <? 0)%Z then (i + Z.of_nat (length l))%Z else i in
  if (j <? 0)%Z then Throw "IndexError" else
  match nth_error l (Z.to_nat j) with Some x => Ok x | None => Throw "IndexError" end.

(** history.py:30-37 restore: position, velocity and time T0 that are printed.  int(t / freq) is the
    quotient towards zero (t / freq is a float: exact below 2^53). *)
Definition restore (t : Z) (h : hist) : outcome (V * V * Z) :=
  if (h_freq h =? 0)%Z then Throw "ZeroDivisionError"
  else
    let k := Z.quot t (h_freq h) in
    let* q := pyget (h_q h) k in
    let* v := pyget (h_qdot h) k in
    Ok (q, v, k).
End Hist.
Arguments hist : clear implicits.
