(** Model of the pool of tasks and features, src/factory/pool.cpp. *)
From Coq Require Import String Ascii List Arith Lia ZArith Bool.
From Verif Require Import Base SMap.
Import ListNotations.
Local Open Scope nat_scope.
Local Open Scope list_scope.

(** pool.hh:69-85.  An object is its address. *)
Record Pool := mkPool { ptasks : list (string * nat); pfeatures : list (string * nat) }.

(** The world: the singleton (None before the first getInstance and after
    destroy, pool.cpp:147-160) and the objects that exist. *)
Record world := mkW { instance : option Pool; alive : list nat }.
Definition world0 : world := mkW None [].

(** pool.cpp:147-152 *)
Definition getInstance (w : world) : Pool :=
  match instance w with Some p => p | None => mkPool [] [] end.
(** pool.cpp:153-156 *)
Definition destroy (w : world) : world := mkW None (alive w).

(** pool.cpp:40-53 *)
Definition registerTask (p : Pool) (n : string) (e : nat) : outcome Pool :=
  match mfind scmp (ptasks p) n with
  | Some _ => Throw "OBJECT_CONFLICT"
  | None => Ok (mkPool (mset scmp (ptasks p) n e) (pfeatures p))
  end.
(** pool.cpp:55-63 *)
Definition getTask (p : Pool) (n : string) : outcome nat :=
  match mfind scmp (ptasks p) n with
  | None => Throw "UNREFERED_OBJECT"
  | Some e => Ok e
  end.
(** pool.cpp:66-80 *)
Definition registerFeature (p : Pool) (n : string) (e : nat) : outcome Pool :=
  match mfind scmp (pfeatures p) n with
  | Some _ => Throw "OBJECT_CONFLICT"
  | None => Ok (mkPool (ptasks p) (mset scmp (pfeatures p) n e))
  end.
(** pool.cpp:82-90 *)
Definition getFeature (p : Pool) (n : string) : outcome nat :=
  match mfind scmp (pfeatures p) n with
  | None => Throw "UNREFERED_OBJECT"
  | Some e => Ok e
  end.

(** What users do: construct a task or a feature, which registers it
    (task-abstract.cpp:25-36, feature-abstract.cpp:66-68; when the registration
    throws, the constructor does and the object does not come to exist), delete
    one (no destructor unregisters), destroy the pool. *)
Inductive act :=
| NewTask (n : string) (e : nat)
| NewFeature (n : string) (e : nat)
| Delete (e : nat)
| Destroy.
Definition pool_step (w : world) (a : act) : outcome unit * world :=
  match a with
  | NewTask n e =>
      match registerTask (getInstance w) n e with
      | Ok p => (Ok tt, mkW (Some p) (e :: alive w))
      | Throw x => (Throw x, mkW (Some (getInstance w)) (alive w))
      | UB => (UB, w)
      end
  | NewFeature n e =>
      match registerFeature (getInstance w) n e with
      | Ok p => (Ok tt, mkW (Some p) (e :: alive w))
      | Throw x => (Throw x, mkW (Some (getInstance w)) (alive w))
      | UB => (UB, w)
      end
  | Delete e => (Ok tt, mkW (instance w) (remove Nat.eq_dec e (alive w)))
  | Destroy => (Ok tt, destroy w)
  end.
Definition pool_run (l : list act) : world := fold_left (fun w a => snd (pool_step w a)) l world0.

(** std::string::rfind of one character. *)
Fixpoint rfind (c : ascii) (s : list ascii) : option nat :=
  match s with
  | [] => None
  | x :: r => match rfind c r with
              | Some i => Some (S i)
              | None => if (x =? c)%char then Some 0 else None
              end
  end.
(** std::string::substr(pos, len) *)
Definition substr (s : list ascii) (pos : nat) (len : nat) : outcome (list ascii) :=
  if length s <? pos then Throw "out_of_range" else Ok (firstn len (skipn pos s)).

(** The name of the graph written in a file, pool.cpp:92-100. *)
Definition graph_name (path : list ascii) : outcome (list ascii) :=
  let tmp1 := match rfind "."%char path with Some i => firstn i path | None => path end in
  match rfind "/"%char path with
  | Some i => substr tmp1 i (length tmp1)
  | None => Ok tmp1
  end.
(** The tasks written, in order, pool.cpp:131-138; the name printed is
    getName(). *)
Definition graph_tasks (name : nat -> string) (p : Pool) : list string :=
  map (fun x => name (snd x)) (ptasks p).
