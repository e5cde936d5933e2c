(** Graphs of operator entities: include/sot/core/unary-op.hh and binary-op.hh, with the parameters that the commands of an operator
    set (src/matrix/operator.hh, addSpecificCommands).

    An entity has one output, whose function applies the operator to the signals plugged into its inputs; the output declares its
    inputs.  A command writes a member of the operator and tells nothing to the output.  When an output is computed again is the rule
    of the library, taken from Deps_Model.  [V]: the values of the signals, [P]: the parameters of the operators.  The types of the
    signals and an input that is not plugged (an exception of the library) are not modelled. *)
From Coq Require Import String List Arith Bool.
From Verif Require Import Deps_Model.
Import ListNotations.
Local Open Scope string_scope. Local Open Scope list_scope.

Section OpGraph.
Context {V P : Type}.

(** An entity: its name (that of its output), the signals plugged into its inputs, its operator. *)
Record opent := OpEnt { oname : string; oplugs : list string; oop : P -> list V -> V }.
(** unary-op.hh:43-53, 64-68 *)
Definition unary (name : string) (op : P -> V -> V) (sin : string) (d : V) : opent :=
  OpEnt name [sin] (fun p l => op p (nth 0 l d)).
(** binary-op.hh:55-66, 76-81 *)
Definition binary (name : string) (op : P -> V -> V -> V) (sin1 sin2 : string) (d : V) : opent :=
  OpEnt name [sin1; sin2] (fun p l => op p (nth 0 l d) (nth 1 l d)).

(** unary-op.hh:47, binary-op.hh:61: the dependencies of SOUT; unary-op.hh:65, binary-op.hh:77-78: what computeOperation reads. *)
Definition net_of (g : list opent) : net := map (fun e => Sig (oname e) (oplugs e) (oplugs e)) g.
(** computeOperation: unary-op.hh:64-68, binary-op.hh:76-81. *)
Definition compute (g : list opent) (par : string -> P) (d : V) (x : string) (env : string -> V) : V :=
  match find (fun e => String.eqb (oname e) x) g with
  | Some e => oop e (par x) (map env (oplugs e))
  | None => d
  end.

(** What is done to a graph: a value given to a signal outside, a command of an operator, a reading.  A reading at a new time brings up
    to date a set of outputs, closed under plugs; [extra]: what the library computes beyond what it has to. *)
Inductive gcmd := GSet (i : string) (v : V) | GCommand (name : string) (p : P) | GRead (outs extra : string -> bool).
Record gstate := GState { sigs : state V; params : string -> P }.
Definition gexec (g : list opent) (d : V) (s : gstate) (c : gcmd) : gstate :=
  match c with
  | GSet i v => GState (occur (compute g (params s) d) (net_of g) (sigs s) (Ev [(i, v)] (fun _ => false) (fun _ => false))) (params s)
  | GCommand x p => GState (sigs s) (fun y => if String.eqb y x then p else params s y)
  | GRead o x => GState (occur (compute g (params s) d) (net_of g) (sigs s) (Ev [] o x)) (params s)
  end.
Definition grun (g : list opent) (d : V) (v0 : string -> V) (p0 : string -> P) (cs : list gcmd) : gstate :=
  fold_left (gexec g d) cs (GState (start v0) p0).
(** What a signal hands out. *)
Definition holds (s : gstate) (x : string) : V := val (sigs s) x.
End OpGraph.
Arguments opent : clear implicits. Arguments gcmd : clear implicits. Arguments gstate : clear implicits.
