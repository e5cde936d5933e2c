(** The debug traces: include/sot/core/debug.hh, src/debug/debug.cpp.  One output file stream, debugfile, is shared by two flows,
    sotDEBUGFLOW and sotERRORFLOW; each has its own buffer and level.  The texts of the format functions are given already
    formatted (vsnprintf is a cut at 511 characters).  A file holds what was written to it once flushed; closing does not fail. *)
From Coq Require Import String Ascii List Arith ZArith Bool.
From Verif Require Import Base RefName_Model.
Import ListNotations.
Local Open Scope string_scope.

Section Debug.
(** Whether a file of this name can be created. *)
Variable openable : string -> bool.

Inductive flow := Dbg | Err.
Definition flow_eqb (a b : flow) : bool := match a, b with Dbg, Dbg | Err, Err => true | _, _ => false end.
Definition fset {A} (p : flow -> A) (fl : flow) (v : A) : flow -> A := fun g => if flow_eqb fl g then v else p g.

(** debug.cpp:24-42 debugfile: the file it has open, and whether failbit or badbit is set; debug.hh:42-46 tmpbuffer and traceLevel of
    each flow (zero at start: the objects are static); the files on the disk. *)
Record dstate := mkD { file : option string; bad : bool; tmp : flow -> string; lev : flow -> Z; disk : string -> option string }.
(** debug.cpp:32-42: without VP_DEBUG the stream starts failed and closed. *)
Definition dbg_new (d : string -> option string) : dstate := mkD None true (fun _ => "") (fun _ => 0%Z) d.

(** What becomes of a write: all of it, or only its first [k] characters and badbit is set. *)
Inductive wres := WOk | WFail (k : nat).
Definition dput (d : string -> option string) (f : string) (txt : string) : string -> option string :=
  fun g => if (g =? f)%string then Some (match d f with Some c => c ++ txt | None => txt end) else d g.
(** outputbuffer << txt: nothing on a stream that is not good; badbit when no file is open. *)
Definition put (s : dstate) (txt : string) (w : wres) : dstate :=
  if bad s then s
  else match file s with
       | None => mkD (file s) true (tmp s) (lev s) (disk s)
       | Some f => match w with
                   | WOk => mkD (file s) false (tmp s) (lev s) (dput (disk s) f txt)
                   | WFail k => mkD (file s) true (tmp s) (lev s) (dput (disk s) f (substring 0 k txt))
                   end
       end.
Definition settmp (s : dstate) (fl : flow) (t : string) : dstate := mkD (file s) (bad s) (fset (tmp s) fl t) (lev s) (disk s).
Definition setlev (s : dstate) (fl : flow) (l : Z) : dstate := mkD (file s) (bad s) (tmp s) (fset (lev s) fl l) (disk s).

(** debug.cpp:47-51 openFile.  The mode [trunc & out] is empty and an ofstream adds out: the file is created or emptied.  Opening a
    stream that has a file open fails. *)
Definition openFile (s : dstate) (f : string) : dstate :=
  let s := if negb (bad s) then mkD None (bad s) (tmp s) (lev s) (disk s) else s in
  match file s with
  | Some _ => mkD (file s) true (tmp s) (lev s) (disk s)
  | None => if openable f then mkD (Some f) false (tmp s) (lev s) (fun g => if (g =? f)%string then Some "" else disk s g)
            else mkD None true (tmp s) (lev s) (disk s)
  end.
(** debug.cpp:53-56 closeFile *)
Definition closeFile (s : dstate) : dstate :=
  let s := if negb (bad s) then mkD None (bad s) (tmp s) (lev s) (disk s) else s in
  mkD (file s) true (tmp s) (lev s) (disk s).

Definition within (l : option Z) (bound : Z) : bool := match l with None => true | Some l => (l <=? bound)%Z end.
(** debug.hh:27-34, 50-58 trace(level, format, ...) and, without a level, trace(format, ...) *)
Definition trace (s : dstate) (fl : flow) (l : option Z) (msg : string) (w : wres) : dstate :=
  let s := if within l (lev s fl) then put s (tmp s fl ++ substring 0 511 msg ++ endl) w else s in settmp s fl "".
(** debug.hh:60-63 trace(level) *)
Definition trace_out (s : dstate) (fl : flow) (l : Z) (w : wres) : dstate :=
  let s := if (l <=? lev s fl)%Z then put s (tmp s fl) w else s in settmp s fl "".
(** debug.hh:75-80 pre, whose argument has already written [txt] to the buffer *)
Definition pre (s : dstate) (fl : flow) (txt : string) (l : option Z) : dstate :=
  let s := settmp s fl (tmp s fl ++ txt) in match l with Some l => setlev s fl l | None => s end.
(** debug.hh:99-117 the macros sotDEBUG, sotDEBUGMUTE and sotERROR ([l] is then [None]); [mode] is VP_DEBUG_MODE. *)
Definition stream (s : dstate) (l : option Z) (mode : Z) (txt : string) (w : wres) : dstate :=
  if negb (within l mode) || bad s then s else put s txt w.

Inductive dcmd :=
| DOpen (f : string) | DClose
| DPre (fl : flow) (txt : string) (l : option Z)
| DTrace (fl : flow) (l : option Z) (msg : string) (w : wres)
| DOut (fl : flow) (l : Z) (w : wres)
| DStream (l : option Z) (mode : Z) (txt : string) (w : wres).
Definition dexec (s : dstate) (c : dcmd) : dstate :=
  match c with
  | DOpen f => openFile s f
  | DClose => closeFile s
  | DPre fl txt l => pre s fl txt l
  | DTrace fl l msg w => trace s fl l msg w
  | DOut fl l w => trace_out s fl l w
  | DStream l mode txt w => stream s l mode txt w
  end.
Definition drun (h : list dcmd) (s : dstate) : dstate := fold_left dexec h s.
End Debug.
