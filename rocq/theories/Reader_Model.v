(** Reader of data files (src/traces/reader.cpp). *)
From Coq Require Import String List Arith Lia ZArith Bool.
From Verif Require Import Base Flags_Model.
Import ListNotations.

Section Reader.
(** Numbers; characters and the conversion of a line to numbers ("iss >> x" until it fails) are those of
    the C++ library and are left abstract. *)
Variables num chr : Type.
Variable numbers : list chr -> list num.
(** Value of an uninitialised coefficient. *)
Variable junk : num.

(** include/sot/core/reader.hh:68-71: iterator on the list of rows: not set, on a row, or end().
    std::list iterators, end() included, stay where they are when rows are appended. *)
Inductive cursor := Unset | At (n : nat) | End.
(** include/sot/core/reader.hh:66-74; [r_vec] and [r_mat] are the values held by the output signals *)
Record reader := mkReader {
  r_data : list (list num); r_cur : cursor; r_rows : Z; r_cols : Z;
  r_vec : list num; r_mat : list (list num) }.
(** src/traces/reader.cpp:30-46 constructor *)
Definition r_new : reader := mkReader [] Unset 0 0 [] [].

(** src/traces/reader.cpp:50-77 load: a line longer than 1023 characters fails the stream, is cut, and ends
    the loop; lines without number are ignored. The file is given by its lines. *)
Definition add_row (l : list chr) (d : list (list num)) : list (list num) :=
  if (0 <? length (numbers l)) then d ++ [numbers l] else d.
Fixpoint load_lines (lines : list (list chr)) (d : list (list num)) : list (list num) :=
  match lines with
  | [] => d
  | l :: r => if (length l <=? 1023) then load_lines r (add_row l d) else add_row (firstn 1023 l) d
  end.
Definition load (s : reader) (lines : list (list chr)) : reader :=
  mkReader (load_lines lines (r_data s)) (r_cur s) (r_rows s) (r_cols s) (r_vec s) (r_mat s).
(** src/traces/reader.cpp:79-86 *)
Definition clear (s : reader) : reader := mkReader [] Unset (r_rows s) (r_cols s) (r_vec s) (r_mat s).
(** src/traces/reader.cpp:88-92 *)
Definition rewind (s : reader) : reader := mkReader (r_data s) Unset (r_rows s) (r_cols s) (r_vec s) (r_mat s).
(** src/traces/reader.cpp:174-177 *)
Definition resize (s : reader) (r c : Z) : reader := mkReader (r_data s) (r_cur s) r c (r_vec s) (r_mat s).

(** src/traces/reader.cpp:98-104: the cursor after the first statements of getNextData *)
Definition at_or_end (d : list (list num)) (n : nat) : cursor := if (n <? length d) then At n else End.
Definition move (s : reader) : cursor :=
  match r_cur s with Unset => at_or_end (r_data s) 0 | At n => at_or_end (r_data s) (S n) | End => End end.

(** src/traces/reader.cpp:114-122: count, resize, fill *)
Definition count_sel (f : Flags) (row : list num) : outcome nat :=
  ofor_range 0 (length row) (fun i dim => let* b := at_ f (Z.of_nat i) in Ok (if (b : bool) then S dim else dim)) 0.
Definition fill_sel (f : Flags) (row : list num) (res : list num) : outcome (nat * list num) :=
  ofor_range 0 (length row)
    (fun i st => let* b := at_ f (Z.of_nat i) in
       if (b : bool) then let* x := vget row i in let* v := vset (snd st) (fst st) x in Ok (S (fst st), v)
       else Ok st) (0, res).

(** src/traces/reader.cpp:94-126 getNextData *)
Definition getNextData (s : reader) (f : Flags) : outcome reader :=
  let c := move s in
  let set v := mkReader (r_data s) c (r_rows s) (r_cols s) v (r_mat s) in
  match c with
  | At n =>
      let* row := vget (r_data s) n in
      let* dim := count_sel f row in
      let* r := fill_sel f row (if length (r_vec s) =? dim then r_vec s else repeat junk dim) in
      Ok (set (snd r))
  | _ => Ok (set (r_vec s))
  end.

(** src/traces/reader.cpp:128-140 getNextMatrix, once the vector is computed. The product rows*cols is
    not truncated to 32 bits; a negative size is an error of Eigen (UB). *)
Definition getNextMatrix (s : reader) : outcome reader :=
  if (Z.of_nat (length (r_vec s)) <? r_rows s * r_cols s)%Z then Ok s
  else if (r_rows s <? 0)%Z || (r_cols s <? 0)%Z then UB
  else
    let rows := Z.to_nat (r_rows s) in let cols := Z.to_nat (r_cols s) in
    let* m := ofor_range 0 rows (fun i m =>
        let* row := ofor_range 0 cols (fun j row => let* x := vget (r_vec s) (i * cols + j) in Ok (row ++ [x])) [] in
        Ok (m ++ [row])) [] in
    Ok (mkReader (r_data s) (r_cur s) (r_rows s) (r_cols s) (r_vec s) m).

Inductive rcmd := RLoad (lines : list (list chr)) | RClear | RRewind | RResize (r c : Z) | RNext (f : Flags).
Definition rexec (s : reader) (c : rcmd) : outcome reader :=
  match c with
  | RLoad l => Ok (load s l) | RClear => Ok (clear s) | RRewind => Ok (rewind s)
  | RResize r c => Ok (resize s r c) | RNext f => getNextData s f
  end.
End Reader.
