(** ViewerLoger (src/dynamic_graph/sot/core/utils/viewer_loger.py): a client of the viewer that also logs what is
    displayed.  The disk maps paths to texts; writes are taken as flushed. *)
From Coq Require Import String Ascii List Arith ZArith Bool.
From Verif Require Import Base.
Import ListNotations.
Local Open Scope string_scope.
Local Open Scope list_scope.

(** The disk: the first binding of a path counts. *)
Definition disk := list (string * string).
Definition content (d : disk) (p : string) : option string :=
  option_map snd (find (fun f => String.eqb (fst f) p) d).
Definition store (d : disk) (p : string) (t : string) : disk :=
  (p, t) :: filter (fun f => negb (String.eqb (fst f) p)) d.

Fixpoint occurs (c : ascii) (s : string) : bool :=
  match s with EmptyString => false | String a r => Ascii.eqb a c || occurs c r end.
Fixpoint ends_with (e s : string) : bool :=
  String.eqb s e || match s with EmptyString => false | String _ r => ends_with e r end.

(** glob("/tmp/view*.dat"): the star matches any text without a slash. *)
Definition globbed (p : string) : bool :=
  match (if String.prefix "/tmp/view" p then Some (String.substring 9 (String.length p - 9) p) else None) with
  | Some r => ends_with ".dat" r && negb (occurs "/" r)
  | None => false
  end.

Section Loger.
Context {num : Type}.
Variables (str : num -> string) (strt : Z -> string).

(** An update sent to the viewer: name and configuration. *)
Definition update := (string * list num)%type.

Record vlog := VLog { v_disk : disk; v_open : list string; v_sent : list update }.

(** viewer_loger.py:16-21 __init__: the files of previous runs are removed. *)
Definition v_init (d : disk) (sent : list update) : vlog :=
  VLog (filter (fun f => negb (globbed (fst f))) d) [] sent.

(** viewer_loger.py:26 *)
Definition path (name : string) : string := append "/tmp/view_" (append name ".dat").

(** "\t".join(l) *)
Definition tab : ascii := ascii_of_nat 9.
Fixpoint join_tab (l : list string) : string :=
  match l with
  | [] => ""
  | [x] => x
  | x :: r => append x (String tab (join_tab r))
  end.

(** viewer_loger.py:27-38 *)
Definition log_line (t : Z) (state : list num) : string :=
  append (join_tab (strt t :: map str state)) (String (ascii_of_nat 10) "").

(** viewer_loger.py:23-39 updateElementConfig at time [t].  A name with a slash names a file in a directory
    that does not exist: open raises. *)
Definition v_update (t : Z) (name : string) (state : list num) (s : vlog) : vlog * outcome unit :=
  let opened :=
    if existsb (String.eqb name) (v_open s) then Some (v_disk s, v_open s)
    else if occurs "/" name then None
    else Some (store (v_disk s) (path name) "", name :: v_open s) in
  match opened with
  | None => (s, Throw "FileNotFoundError")
  | Some (d, o) =>
      let old := match content d (path name) with Some x => x | None => "" end in
      (VLog (store d (path name) (append old (log_line t state))) o (v_sent s ++ [(name, state)]), Ok tt)
  end.

(** The script: it goes on after an exception. *)
Record vcall := VCall { u_time : Z; u_name : string; u_state : list num }.
Definition v_run (s : vlog) (cs : list vcall) : vlog :=
  fold_left (fun s c => fst (v_update (u_time c) (u_name c) (u_state c) s)) cs s.
End Loger.
