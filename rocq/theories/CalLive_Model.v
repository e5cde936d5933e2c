(** Calendar of actions that use the calendar while it runs
    (src/dynamic_graph/sot/core/utils/attime.py).
    Simplification: a function may register, stop and add pings, but does not run the calendar. *)
From Coq Require Import String List Arith Lia ZArith Bool.
From Verif Require Import Base Calendar_Model.
Import ListNotations.

Section Live.
(** What a function called at a tick does to the calendar: it may depend on the tick and on all the calls
    made so far. *)
Variable act : Z -> list nat -> nat -> list ccmd.

Local Notation lstate := (calendar * list nat)%type.
(** The result of a run with a bounded number of calls per list: [None] if the bound is reached. *)
Local Notation lresult := (option (outcome lstate)).
Definition lbind (r : lresult) (k : lstate -> lresult) : lresult :=
  match r with Some (Ok s) => k s | other => other end.

(** attime.py:80-82, 86-87, 90, 99: a Python loop over a list reads the element at a position of the list as
    it is when the loop gets there, and ends when the position is past the end; the call is [fun( *args)]. *)
Fixpoint walk (n : nat) (sel : calendar -> list nat) (t : Z) (i : nat) (s : lstate) : lresult :=
  match n with
  | 0 => None
  | S n' =>
      match nth_error (sel (fst s)) i with
      | None => Some (Ok s)
      | Some f =>
          match ofold cexec (act t (snd s) f) (fst s) with
          | Ok c' => walk n' sel t (S i) (c', snd s ++ [f])
          | Throw w => Some (Throw w)
          | UB => Some UB
          end
      end
  end.

(** The functions of the list of a key; the list of a key is changed in place (attime.py:55-59). *)
Definition funs_at (k : ckey) (c : calendar) : list nat :=
  match dfind (c_events c) k with Some l => map fst l | None => [] end.
Definition has_key (k : ckey) (c : calendar) : bool :=
  match dfind (c_events c) k with Some _ => true | None => false end.

(** attime.py:80-99 callPing, run *)
Definition run_live (n : nat) (t : Z) (s : lstate) : lresult :=
  lbind (if has_key KAlways (fst s) then walk n (funs_at KAlways) t 0 s else Some (Ok s)) (fun s =>
  if has_key (KTick t) (fst s) then
    lbind (walk n c_ping t 0 s) (fun s => walk n (funs_at (KTick t)) t 0 s)
  else Some (Ok s)).

(** attime.py:131-133 fastForward *)
Fixpoint forward_live (n : nat) (ts : list nat) (s : lstate) : lresult :=
  match ts with
  | [] => Some (Ok s)
  | i :: r => lbind (run_live n (Z.of_nat i) s) (forward_live n r)
  end.
End Live.
