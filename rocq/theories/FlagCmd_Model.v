(** The command that sets a flag signal from a text: src/factory/additional-functions.cpp. *)
From Coq Require Import String Ascii List Arith ZArith Bool.
From Verif Require Import Base RefName_Model Flags_Model.
Import ListNotations.
Local Open Scope string_scope.

(** A signal of the pool: of type Flags, with the value it holds ([None] when copying it throws), or of another type. *)
Inductive psig := SFlags (v : option Flags) | SOther.
(** PoolStorage, the signals by their names; the name that heads the argument is taken as already separated from the text after it. *)
Definition pool := string -> option psig.
Definition pset (p : pool) (n : string) (s : psig) : pool := fun m => if (m =? n)%string then Some s else p m.

(** What the stream calls a blank (the "C" locale): tab, line feed, vertical tab, form feed, carriage return, space. *)
Definition is_space (c : ascii) : bool := let k := nat_of_ascii c in (((9 <=? k) && (k <=? 13)) || (k =? 32))%nat.
(** std::ws *)
Fixpoint skip_ws (s : string) : string := match s with String c r => if is_space c then skip_ws r else s | EmptyString => s end.

(** additional-functions.cpp:27-54 cmdFlagSet: what it throws, the pool and what it prints.  getSignal throws an ExceptionAbstract, which is
    passed on; what else is thrown becomes a syntax error.  The value is assigned once it is read. *)
Definition cmdFlagSet (p : pool) (cmdLine name text : string) : outcome unit * pool * string :=
  if cmdLine =? "help" then
    (Ok tt, p, "  - set <obj1.sig1(flag type)> {#&|}START:END" ++ tb ++ tb ++ "Set or reset the flag value." ++ endl)
  else match p name with
       | None => (Throw "UNREFERED_SIGNAL", p, "")
       | Some SOther => (Throw "SYNTAX_ERROR", p, "")
       | Some (SFlags v) =>
           let fl := match v with Some f => f | None => of_bool false end in
           match read (skip_ws text) fl with
           | (Ok _, fl') => (Ok tt, pset p name (SFlags (Some fl')), "")
           | (Throw _, _) => (Throw "SYNTAX_ERROR", p, "")
           | (UB, _) => (UB, p, "")
           end
       end.

(** A history of commands, whatever each answers. *)
Definition frun (h : list (string * string * string)) (p : pool) : pool :=
  fold_left (fun p '(c, n, t) => snd (fst (cmdFlagSet p c n t))) h p.
