(** Calendar of actions (src/dynamic_graph/sot/core/utils/attime.py). *)
From Coq Require Import String List Arith Lia ZArith Bool.
From Verif Require Import Base.
Import ListNotations.

(** attime.py:14-26 ALWAYS and STOP are two objects, equal only to themselves. *)
Inductive ckey := KTick (t : Z) | KAlways | KStop.
Definition ckey_eqb (a b : ckey) : bool :=
  match a, b with KTick x, KTick y => Z.eqb x y | KAlways, KAlways | KStop, KStop => true | _, _ => false end.
(** A function (identified by a number) and its documentation, if any. Functions that change the calendar
    while it runs are not modelled. *)
Notation event := (nat * option string)%type.
Definition event_eqb (a b : event) : bool :=
  Nat.eqb (fst a) (fst b) && match snd a, snd b with Some x, Some y => String.eqb x y | None, None => true | _, _ => false end.
(** attime.py:30-33 *)
Record calendar := mkCal { c_events : list (ckey * list event); c_ping : list nat }.
Definition cal_new : calendar := mkCal [] [].

(** Python dictionary: find, set (in place or at the end). *)
Fixpoint dfind (d : list (ckey * list event)) (k : ckey) : option (list event) :=
  match d with [] => None | (k', v) :: r => if ckey_eqb k k' then Some v else dfind r k end.
Fixpoint dset (d : list (ckey * list event)) (k : ckey) (v : list event) : list (ckey * list event) :=
  match d with [] => [(k, v)] | (k', v') :: r => if ckey_eqb k k' then (k', v) :: r else (k', v') :: dset r k v end.
(** list.remove: the first equal element, ValueError if there is none *)
Fixpoint remove1 (l : list event) (e : event) : outcome (list event) :=
  match l with
  | [] => Throw "ValueError"
  | x :: r => if event_eqb x e then Ok r else let* r' := remove1 r e in Ok (x :: r')
  end.

(** attime.py:50-59 registerEvent *)
Definition registerEvent (c : calendar) (k : ckey) (e : event) : outcome calendar :=
  let* d := if ckey_eqb k KStop then
              match dfind (c_events c) KAlways with
              | None => Throw "KeyError"
              | Some l => let* l' := remove1 l e in Ok (dset (c_events c) KAlways l')
              end
            else Ok (c_events c) in
  let l := match dfind d k with Some l => l | None => [] end in
  Ok (mkCal (dset d k (l ++ [e])) (c_ping c)).

(** attime.py:61-75 registerEvents: a function followed by a text, or functions and pairs. *)
Inductive carg := AFun (f : nat) (doc : option string) | APair (f : nat) (doc : option string) | AText (s : string).
Definition event_of (a : carg) : outcome event :=
  match a with AFun f d | APair f d => Ok (f, d) | AText _ => Throw "AttributeError" end.
Definition registerEvents (c : calendar) (k : ckey) (l : list carg) : outcome calendar :=
  match l with
  | [AFun f _; AText s] => registerEvent c k (f, Some s)
  | _ => ofold (fun c a => let* e := event_of a in registerEvent c k e) l c
  end.
(** attime.py:47-48 stop *)
Definition stop (c : calendar) (l : list carg) : outcome calendar := registerEvents c KStop l.
(** attime.py:77-78 addPing *)
Definition addPing (c : calendar) (f : nat) : calendar := mkCal (c_events c) (c_ping c ++ [f]).

(** attime.py:80-99 callPing, run: the functions called, in order *)
Definition run (c : calendar) (k : ckey) : list nat :=
  (match dfind (c_events c) KAlways with Some l => map fst l | None => [] end) ++
  (match dfind (c_events c) k with Some l => c_ping c ++ map fst l | None => [] end).
(** attime.py:131-133 fastForward *)
Definition fastForward (c : calendar) (t : Z) : list nat :=
  fold_left (fun tr i => tr ++ run c (KTick (Z.of_nat i))) (seq 0 (Z.to_nat (t + 1))) [].

Inductive ccmd := CReg (k : ckey) (e : event) | CPing (f : nat).
Definition cexec (c : calendar) (x : ccmd) : outcome calendar :=
  match x with CReg k e => registerEvent c k e | CPing f => Ok (addPing c f) end.
