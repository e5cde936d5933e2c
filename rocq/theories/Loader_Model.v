(** SotLoader (include/sot/core/sot-loader.hh, src/tools/sot-loader.cpp): loading of the robot
    library, running of the graph, clean up.

    The operating system and dynamic-graph are modelled by what the loader observes of them:
    - a library file can be opened or not, exports the two symbols or not, and the interface it
      creates registers one device in the pool or none.  The interface owns that device and
      deletes it when it is destroyed.
    - the pool of dynamic-graph is a map from names to entities; registering a name twice and
      deregistering an unknown name raise an exception; destroying the pool deletes every entity
      in it; the next access makes an empty pool.
    The embedded Python interpreter is modelled by its effect on the pool. *)
From Coq Require Import String List Arith Lia ZArith Bool.
From Verif Require Import Base.
Import ListNotations.
Local Open Scope string_scope.
Local Open Scope list_scope.

Record lib := Lib { l_create : bool; l_destroy : bool; l_device : option string }.

(** What the outside sees, in order. *)
Inductive event :=
| EOpen (f : string)          (* dlopen succeeded *)
| EClose (f : string)         (* dlclose *)
| ECreate (n : nat)           (* an interface was created *)
| EDestroy (n : nat)          (* an interface was destroyed *)
| ESet (n : nat)              (* nominalSetSensors of interface n *)
| EGet (n : nat)              (* getControl of interface n *)
| EDelete (name : string).    (* the pool deleted an entity *)

Record st := St {
  stopped : bool;             (* dynamic_graph_stopped_ *)
  iface : option nat;         (* sot_external_interface_ *)
  fname : string;             (* sot_dynamic_library_filename_ *)
  handle : option string;     (* sot_dynamic_library_ *)
  device : string;            (* device_name_ *)
  pool : list (string * option nat);   (* name, interface that owns the entity *)
  dead : list nat;            (* interfaces whose device was deleted by the pool *)
  next : nat;                 (* number of interfaces created so far *)
  trace : list event
}.

(** sot-loader.cpp:33-39 constructor *)
Definition start : st := St true None "" None "" [] [] 0 [].

(** What a call returns: nothing, a Boolean, or an exception of some class. *)
Inductive res := RUnit | RBool (b : bool) | RExn (c : string).

Definition emit (e : list event) (s : st) : st :=
  St (stopped s) (iface s) (fname s) (handle s) (device s) (pool s) (dead s) (next s) (trace s ++ e).
Definition registered (p : list (string * option nat)) (n : string) : bool :=
  existsb (fun x => String.eqb (fst x) n) p.

Section Env.
Variable libs : string -> option lib.

(** sot-loader.cpp:70-129 initialization.  The assertion on the pointer is not modelled (the library
    returns an object), nor are the Python commands, which only change the interpreter. *)
Definition initialization (s : st) : st * res :=
  match libs (fname s) with
  | None => (St (stopped s) (iface s) (fname s) None (device s) (pool s) (dead s) (next s) (trace s), RBool false)
  | Some l =>
      let s := St (stopped s) (iface s) (fname s) (Some (fname s)) (device s) (pool s) (dead s) (next s)
                  (trace s ++ [EOpen (fname s)]) in
      if negb (l_create l) then (s, RBool false)
      else
        match l_device l with
        | Some d =>
            if registered (pool s) d then (s, RExn "ExceptionFactory")
            else (St (stopped s) (Some (next s)) (fname s) (handle s) (device s) ((d, Some (next s)) :: pool s)
                     (dead s) (S (next s)) (trace s ++ [ECreate (next s)]), RBool true)
        | None => (St (stopped s) (Some (next s)) (fname s) (handle s) (device s) (pool s) (dead s)
                      (S (next s)) (trace s ++ [ECreate (next s)]), RBool true)
        end
  end.

(** PoolStorage::destroy (dynamic-graph) *)
Definition pool_destroy (s : st) : st :=
  St (stopped s) (iface s) (fname s) (handle s) (device s) []
     (flat_map (fun x => match snd x with Some n => [n] | None => [] end) (pool s) ++ dead s)
     (next s) (trace s ++ map (fun x => EDelete (fst x)) (pool s)).

(** sot-loader.cpp:131-163 cleanUp.  UB: destroying an interface deletes its device, a second time if
    the pool deleted it before. *)
Definition cleanUp (s : st) : outcome (st * res) :=
  let go (s : st) : outcome (st * res) :=
    let s := pool_destroy s in
    match handle s, iface s with
    | Some f, Some n =>
        match libs f with
        | Some l =>
            if negb (l_destroy l) then Ok (s, RUnit)
            else if existsb (Nat.eqb n) (dead s) then UB
            else Ok (St (stopped s) None (fname s) None (device s) (pool s) (dead s) (next s)
                        (trace s ++ [EDestroy n; EClose f]), RUnit)
        | None => Ok (s, RUnit)
        end
    | _, _ => Ok (s, RUnit)
    end in
  if String.eqb (device s) "" then go s
  else if registered (pool s) (device s) then
    go (St (stopped s) (iface s) (fname s) (handle s) (device s)
           (filter (fun x => negb (String.eqb (fst x) (device s))) (pool s)) (dead s) (next s) (trace s))
  else Ok (s, RExn "ExceptionFactory").

(** Exceptions of the interface during one iteration: in nominalSetSensors or in getControl, class,
    derived from std::exception or not. *)
Inductive failure := FSet | FGet.
Record exn := Exn { x_where : failure; x_class : string; x_std : bool }.

(** sot-loader.cpp:171-184 oneIteration: [throw e] copies the exception as a std::exception.  UB: null
    pointer, or an interface whose device was deleted. *)
Definition oneIteration (e : option exn) (s : st) : outcome (st * res) :=
  if stopped s then Ok (s, RUnit)
  else
    match iface s with
    | None => UB
    | Some n =>
        if existsb (Nat.eqb n) (dead s) then UB
        else
          let rethrown (x : exn) := RExn (if x_std x then "std::exception" else x_class x) in
          match e with
          | None => Ok (emit [ESet n; EGet n] s, RUnit)
          | Some x =>
              match x_where x with
              | FSet => Ok (emit [ESet n] s, rethrown x)
              | FGet => Ok (emit [ESet n; EGet n] s, rethrown x)
              end
          end
    end.

(** sot-loader.cpp:186-208 loadDeviceInPython: Device(name) finds the entity or makes one (owned by
    the pool).  [ok]: the Python commands succeeded; errors are dropped. *)
Definition loadDeviceInPython (name : string) (ok : bool) (s : st) : st :=
  let p := if ok && negb (registered (pool s) name) then (name, None) :: pool s else pool s in
  St (stopped s) (iface s) (fname s) (handle s) name p (dead s) (next s) (trace s).

(** Entity created by a Python command or script: owned by the pool. *)
Definition pythonEntity (name : string) (s : st) : st :=
  if registered (pool s) name then s
  else St (stopped s) (iface s) (fname s) (handle s) (device s) ((name, None) :: pool s) (dead s) (next s) (trace s).

Inductive cmd :=
| SetName (f : string) | Init | Start | Stop | Iter (e : option exn)
| LoadDevice (name : string) (ok : bool) | PyEntity (name : string) | Clean.

(** sot-loader.hh:93-103 startDG, stopDG, setDynamicLibraryName *)
Definition step (s : st) (c : cmd) : outcome (st * res) :=
  match c with
  | SetName f => Ok (St (stopped s) (iface s) f (handle s) (device s) (pool s) (dead s) (next s) (trace s), RUnit)
  | Init => Ok (initialization s)
  | Start => Ok (St false (iface s) (fname s) (handle s) (device s) (pool s) (dead s) (next s) (trace s), RUnit)
  | Stop => Ok (St true (iface s) (fname s) (handle s) (device s) (pool s) (dead s) (next s) (trace s), RUnit)
  | Iter e => oneIteration e s
  | LoadDevice name ok => Ok (loadDeviceInPython name ok s, RUnit)
  | PyEntity name => Ok (pythonEntity name s, RUnit)
  | Clean => cleanUp s
  end.

(** A caller that goes on after exceptions. *)
Definition run (h : list cmd) (s : st) : outcome st := ofold (fun s c => let* r := step s c in Ok (fst r)) h s.

(** sot-loader.cpp:41 destructor: an exception that leaves a destructor ends the program. *)
Definition destructor (s : st) : outcome (list event) :=
  let* r := cleanUp s in
  match snd r with
  | RExn _ => Throw "std::terminate"
  | _ => Ok (trace (fst r))
  end.
End Env.
