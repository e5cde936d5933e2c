(** The decorator of the calendar and what a run prints (src/dynamic_graph/sot/core/utils/attime.py:83-130).

    Functions are the numbers below [dc_base]; the objects made by the decorator come after them, in order.  [str] is str() of a time,
    [show] what print writes for a function: parameters.  Functions raise nothing and do not change the calendar (see CalLive_Model).
    The __repr__ of the calendar is not modelled: it uses dict.iteritems, which Python 3 does not have. *)
From Coq Require Import String List Arith ZArith Bool.
From Verif Require Import Base Calendar_Model.
Import ListNotations.
Local Open Scope string_scope. Local Open Scope list_scope. Local Open Scope nat_scope.

Section Deco.
Variable str : ckey -> string.
Variable show : nat -> string.

(** The calendar, the __doc__ of functions and objects, the function held by each object of the decorator. *)
Record dcal := DCal { dc_cal : calendar; dc_doc : nat -> option string; dc_decos : list nat; dc_base : nat }.
Definition next_id (s : dcal) : nat := dc_base s + length (dc_decos s).

(** attime.py:106-127 generatorDecorator: calendarDeco(functer).  The class has no doc of its own. *)
Definition decorate (s : dcal) (k : ckey) (f : nat) : dcal * outcome nat :=
  let d := match dc_doc s f with None => "No doc fun" | Some d => d end in
  let doc1 := fun g => if Nat.eqb g f then Some d else dc_doc s g in
  let own := if String.eqb d "" then None else Some (d ++ " (will be run at time " ++ str k ++ ")")%string in
  match registerEvents (dc_cal s) k [AFun f (Some d); AText d] with
  | Ok c => (DCal c (fun g => if Nat.eqb g (next_id s) then own else doc1 g) (dc_decos s ++ [f]) (dc_base s), Ok (next_id s))
  | Throw e => (DCal (dc_cal s) doc1 (dc_decos s) (dc_base s), Throw e)
  | UB => (s, UB)
  end.
(** attime.py:129-130 calendarDeco.__call__: the function that a call ends in.  An object holds something made before it. *)
Fixpoint target_in (decos : list nat) (base n f : nat) : nat :=
  if f <? base then f else
  match n with
  | O => f
  | S n' => match nth_error decos (f - base) with Some g => target_in decos base n' g | None => f end
  end.
Definition target (s : dcal) (f : nat) : nat := target_in (dc_decos s) (dc_base s) (length (dc_decos s)) f.

(** attime.py:71-76 a function or an object alone, with its __doc__; 66-67 with a text; 47-48 stop. *)
Definition register_one (s : dcal) (k : ckey) (f : nat) : dcal * outcome unit :=
  match registerEvents (dc_cal s) k [AFun f (dc_doc s f)] with
  | Ok c => (DCal c (dc_doc s) (dc_decos s) (dc_base s), Ok tt)
  | Throw e => (s, Throw e)
  | UB => (s, UB)
  end.
Definition register_doc (s : dcal) (k : ckey) (f : nat) (d : string) : dcal * outcome unit :=
  match registerEvents (dc_cal s) k [AFun f (dc_doc s f); AText d] with
  | Ok c => (DCal c (dc_doc s) (dc_decos s) (dc_base s), Ok tt)
  | Throw e => (s, Throw e)
  | UB => (s, UB)
  end.
Definition stop_one (s : dcal) (f : nat) : dcal * outcome unit := register_one s KStop f.

(** attime.py:83-99 run: the functions that are called in the end, and the lines printed. *)
Definition calls_at (s : dcal) (k : ckey) : list nat := map (target s) (run (dc_cal s) k).
Definition line (s : dcal) (k : ckey) (e : event) : string :=
  ("At time " ++ str k ++ ":  " ++
   match snd e with
   | Some d => d
   | None => match dc_doc s (fst e) with Some d => d | None => "Runing  " ++ show (fst e) end
   end)%string.
Definition printed (s : dcal) (k : ckey) : list string :=
  match dfind (c_events (dc_cal s)) k with Some l => map (line s k) l | None => [] end.

Inductive xcmd := XDeco (k : ckey) (f : nat) | XReg (k : ckey) (f : nat) | XText (k : ckey) (f : nat) (d : string).
Definition xexec (s : dcal) (x : xcmd) : dcal :=
  match x with XDeco k f => fst (decorate s k f) | XReg k f => fst (register_one s k f) | XText k f d => fst (register_doc s k f d) end.
(** A new calendar, functions 0 .. base-1 with their docs. *)
Definition dcal_new (base : nat) (doc : nat -> option string) : dcal := DCal cal_new doc [] base.
End Deco.
