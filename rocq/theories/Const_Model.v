(** Model of the entities that hold a constant: src/matrix/matrix-constant.cpp, vector-constant.cpp, double-constant.cpp and
    their commands.

    A signal set by setConstant hands out the value given, at every time (dynamic-graph, outside /repo).  The value it hands
    out before any is set is that of dynamic-graph too: it is a parameter here.  Memory is not modelled: a size asked for is
    always granted. *)
From Coq Require Import List Arith ZArith.
Import ListNotations.

Section Const.
Context {num : Type} (zero : num).

(** dynamicgraph::Matrix: sizes and lines; a matrix without a line keeps its number of columns. *)
Record cmat := CMat { cm_rows : nat; cm_cols : nat; cm_data : list (list num) }.

(** The values of the three kinds of constants. *)
Inductive cval := CM (m : cmat) | CV (v : list num) | CD (x : num).

(** matrix-constant.hh:35 and vector-constant.hh:33: the fields [rows] and [cols] (a vector and a number have no [cols]; a number
    has none), and the output. *)
Record const := Const { c_rows : nat; c_cols : nat; c_out : cval }.

(** matrix-constant.cpp:25-31, vector-constant.cpp:24-29, double-constant.cpp:19-22 *)
Definition const_new (v0 : cval) : const := Const 0 0 v0.

(** matrix-constant-command.h:36-46: Matrix::Zero(rows, cols), then setConstant; vector-constant-command.h:34-43: Vector::Zero(size).
    The fields of the entity are not written. *)
Definition resizeM (c : const) (r k : nat) : const :=
  Const (c_rows c) (c_cols c) (CM (CMat r k (repeat (repeat zero k) r))).
Definition resizeV (c : const) (n : nat) : const := Const (c_rows c) (c_cols c) (CV (repeat zero n)).

(** setValue: matrix-constant.cpp:59-61, vector-constant.cpp:57-59, double-constant.cpp:38-40 *)
Definition setValue (c : const) (v : cval) : const := Const (c_rows c) (c_cols c) v.

(** The output read at a time *)
Definition const_read (c : const) (t : Z) : cval := c_out c.

Inductive ccmd := CResizeM (r k : nat) | CResizeV (n : nat) | CSet (v : cval).
Definition const_step (c : const) (x : ccmd) : const :=
  match x with CResizeM r k => resizeM c r k | CResizeV n => resizeV c n | CSet v => setValue c v end.

(** The entities with the commands they have: resize is that of the matrix or of the vector, and the number has none
    (matrix-constant.cpp:44-56, vector-constant.cpp:42-54, double-constant.cpp:26-35). *)
Inductive ckind := KMatrix | KVector | KNumber.
Definition accepts (k : ckind) (x : ccmd) : bool :=
  match k, x with
  | KMatrix, CResizeM _ _ | KMatrix, CSet (CM _) => true
  | KVector, CResizeV _ | KVector, CSet (CV _) => true
  | KNumber, CSet (CD _) => true
  | _, _ => false
  end.
(** A command the entity does not have, or with an argument of another kind, is refused by dynamic-graph and changes nothing. *)
Definition const_exec (k : ckind) (c : const) (x : ccmd) : const := if accepts k x then const_step c x else c.
End Const.
Arguments cmat : clear implicits.
Arguments cval : clear implicits.
Arguments const : clear implicits.
Arguments ccmd : clear implicits.
