(** The exceptions thrown by the library: src/exception/*.cpp and include/sot/core/exception-*.hh. *)
From Coq Require Import String List Arith Lia Bool Ascii DecimalString.
From Verif Require Import Base.
Local Open Scope string_scope.

(** One class per header exception-*.hh. *)
Inductive kind := KSignal | KTask | KFeature | KFactory | KDynamic | KTools.

(** EXCEPTION_NAME: exception-signal.cpp:21, exception-task.cpp:21, exception-feature.cpp:21,
    exception-factory.cpp:22, exception-dynamic.cpp:21, exception-tools.cpp:21 *)
Definition exceptionName (k : kind) : string :=
  match k with
  | KSignal => "Signal" | KTask => "Task" | KFeature => "Feature"
  | KFactory => "Factory" | KDynamic => "Dynamic" | KTools => "Tools"
  end.

(** exception-abstract.hh:38-48, the value of GENERIC in each class *)
Definition generic (k : kind) : nat :=
  match k with
  | KSignal => 100 | KTask => 200 | KFeature => 300 | KFactory => 400 | KDynamic => 500 | KTools => 700
  end.

(** The number of codes of each class: exception-signal.hh:33-43, exception-task.hh:33-40,
    exception-feature.hh:33-37, exception-factory.hh:33-46, exception-dynamic.hh:33-42,
    exception-tools.hh:33-40 *)
Definition codes (k : kind) : nat :=
  match k with
  | KSignal => 7 | KTask => 6 | KFeature => 3 | KFactory => 10 | KDynamic => 6 | KTools => 4
  end.

Record exn := Exn { ekind : kind; code : nat; message : string }.

(** exception-abstract.cpp:22-28 with the first constructor of each class; [i] is the rank of the
    code in the enumeration. *)
Definition make (k : kind) (i : nat) (msg : string) : exn := Exn k (generic k + i) msg.

(** The second constructor of each class (exception-factory.cpp:31-53 and the same lines of the
    others): [formatted] is the whole text that the format and its arguments stand for, of which
    vsnprintf keeps 255 characters.  In exception-task.cpp:37 and exception-feature.cpp:38 the
    message is assigned, in the others it is extended. *)
Definition SIZE : nat := 256.
Definition make_format (k : kind) (i : nat) (msg formatted : string) : exn :=
  let buffer := substring 0 (SIZE - 1) formatted in
  Exn k (generic k + i)
    (match k with KTask | KFeature => buffer | _ => msg ++ buffer end).

(** exception-abstract.cpp:34-44: what() is the same text as a C string, which ends at the first
    null character. *)
Definition getStringMessage (e : exn) : string := message e.
Definition getCode (e : exn) : nat := code e.
Fixpoint c_str (s : string) : string :=
  match s with
  | EmptyString => EmptyString
  | String c r => if Ascii.eqb c zero then EmptyString else String c (c_str r)
  end.
Definition what (e : exn) : string := c_str (message e).

Definition newline : string := String (ascii_of_nat 10) EmptyString.

(** exception-abstract.cpp:77-87, SOT_EXCEPTION_PASSING_PARAM undefined (exception-abstract.hh:25) *)
Definition print (e : exn) : string :=
  exceptionName (ekind e) ++ "Error [#" ++ NilZero.string_of_uint (Nat.to_uint (code e)) ++ "]:  "
    ++ message e ++ newline.
