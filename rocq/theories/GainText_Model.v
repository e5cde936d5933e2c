(** What the gains print of themselves: src/task/gain-adaptive.cpp:154-161, src/task/gain-hyperbolic.cpp:82-91. *)
From Coq Require Import String Ascii List Arith Reals Bool.
From Verif Require Import Gain_Model.
Import ListNotations.
Local Open Scope string_scope.

Section Text.
(** How the stream prints a double. *)
Variable pd : R -> string.
(** gain-adaptive.cpp:156-159, gain-hyperbolic.cpp:84-87: the gain last computed; nothing when reading it fails. *)
Definition last_text (gain : option R) : string := match gain with Some v => " = " ++ pd v | None => "" end.
(** gain-adaptive.cpp:154-161 *)
Definition adaptive_text (name : string) (gain : option R) (g : adaptive) : string :=
  "Gain Adaptative " ++ name ++ last_text gain ++ " (" ++ pd (a_a g) ++ ";" ++ pd (a_b g) ++ ";" ++ pd (a_c g) ++ ") ".
(** gain-hyperbolic.cpp:82-91 *)
Definition hyperbolic_text (name : string) (gain : option R) (g : hyperbolic) : string :=
  "Gain Hyperbolic " ++ name ++ last_text gain ++
  " (" ++ pd (h_a g) ++ ".exp(-" ++ pd (h_b g) ++ "(x-" ++ pd (h_d g) ++ "))+" ++ pd (h_c g).
End Text.
