(** Model of big/state.py: accessor and dispatch (lines 288-433).
    Names are strings.  Values, the rest of the world and what other objects do when an
    attribute of theirs is read or set or when they are called are arbitrary.  Of the class
    only the attributes are modelled that matter here: properties made by accessor, functions
    made by dispatch, and other values (functions included) without descriptor behaviour of
    their own.  The metadata that update_wrapper copies is not modelled. *)
From Verif Require Export PyStr.

Definition name := str.
Definition world (V M : Type) := (list (name * V) * M)%type.      (* the __dict__ of self; everything else *)

(** what a class attribute is *)
Inductive cattr (V : Type) :=
| Property (state_manager : name)                                  (* big/state.py:325-331 *)
| Dispatcher (state_manager prefix suffix fname : name)            (* big/state.py:424-432 *)
| Plain (v : V).
Arguments Property {V}. Arguments Dispatcher {V}. Arguments Plain {V}.
Definition class (V : Type) := list (name * cattr V).
Fixpoint lookup {A} (n : name) (d : list (name * A)) : option A :=
  match d with [] => None | (k, v) :: d => if str_eqb k n then Some v else lookup n d end.
(** d[n] = v, setattr(cls, n, v) *)
Fixpoint store {A} (n : name) (v : A) (d : list (name * A)) : list (name * A) :=
  match d with [] => [(n, v)] | (k, x) :: d => if str_eqb k n then (k, v) :: d else (k, x) :: store n v d end.

Definition state_attr : name := u "state".
(** big/state.py:289-333 accessor(attribute, state_manager)(cls) *)
Definition accessor {V} (attribute state_manager : name) (cls : class V) : class V := store attribute (Property state_manager) cls.
(** big/state.py:337-433: "@dispatch(state_manager, prefix=, suffix=) def fname" in the body of a class; the function itself is thrown away *)
Definition dispatch {V} (state_manager prefix suffix fname : name) : cattr V := Dispatcher state_manager prefix suffix fname.
Definition def_method {V} (n : name) (c : cattr V) (cls : class V) : class V := store n c cls.

Section Machine.
  Context {V A M : Type}.                                          (* values; arguments of calls; the rest of the world *)
  (** other objects: getattr, setattr, and a call *)
  Record objects := Objects {
    o_get : V -> name -> world V M -> world V M * result V;
    o_set : V -> name -> V -> world V M -> world V M * result unit;
    o_call : V -> A -> world V M -> world V M * result V }.
  Context (Ob : objects) (cls : class V).

  Definition bind {X Y} (r : world V M * result X) (k : X -> world V M -> world V M * result Y) : world V M * result Y :=
    match r with (w, Ok x) => k x w | (w, Err e) => (w, Err e) end.

  (** getattr(self, n): a property of the class, else the instance, else the class.  [fuel] is what is left of the stack.
      (Reading a method without calling it is not modelled.) *)
  Fixpoint self_get (fuel : nat) (n : name) (w : world V M) : world V M * result V :=
    match fuel with
    | O => (w, Err RecursionError)
    | S fuel =>
        match lookup n cls with
        | Some (Property sm) =>                                    (* getter *)
            bind (self_get fuel sm w) (fun i w => o_get Ob i state_attr w)
        | c =>
            match lookup n (fst w), c with
            | Some v, _ => (w, Ok v)
            | None, Some (Plain v) => (w, Ok v)
            | None, Some _ => (w, Err (OtherError 0))              (* a bound method: not modelled *)
            | None, None => (w, Err AttributeError)
            end
        end
    end.
  (** setattr(self, n, v) *)
  Definition self_set (fuel : nat) (n : name) (v : V) (w : world V M) : world V M * result unit :=
    match lookup n cls with
    | Some (Property sm) =>                                        (* setter *)
        bind (self_get fuel sm w) (fun i w => o_set Ob i state_attr v w)
    | _ => ((store n v (fst w), snd w), Ok tt)
    end.
  (** self.n(args) *)
  Definition self_call (fuel : nat) (n : name) (args : A) (w : world V M) : world V M * result V :=
    match lookup n cls, lookup n (fst w) with
    | Some (Dispatcher sm prefix suffix fname), None =>            (* wrapper(self, args) *)
        bind (self_get fuel sm w) (fun i w =>
        bind (o_get Ob i state_attr w) (fun st w =>
        bind (o_get Ob st (prefix ++ fname ++ suffix) w) (fun method w =>
        o_call Ob method args w)))
    | _, _ => bind (self_get fuel n w) (fun f w => o_call Ob f args w)
    end.

  (** A program that uses self: it may go on with what it gets or with the exception. *)
  Inductive prog :=
  | Done (r : result V)
  | Get (n : name) (k : result V -> prog)                          (* self.n *)
  | Set_ (n : name) (v : V) (k : result unit -> prog)              (* self.n = v *)
  | Call (n : name) (args : A) (k : result V -> prog)              (* self.n(args) *)
  | GetOf (o : V) (n : name) (k : result V -> prog)                (* o.n *)
  | SetOf (o : V) (n : name) (v : V) (k : result unit -> prog)     (* o.n = v *)
  | CallOf (o : V) (args : A) (k : result V -> prog)               (* o(args) *)
  | Act (f : world V M -> world V M) (k : world V M -> prog).      (* anything else *)
  Fixpoint run (fuel : nat) (p : prog) (w : world V M) : world V M * result V :=
    match p with
    | Done r => (w, r)
    | Get n k => let (w', r) := self_get fuel n w in run fuel (k r) w'
    | Set_ n v k => let (w', r) := self_set fuel n v w in run fuel (k r) w'
    | Call n args k => let (w', r) := self_call fuel n args w in run fuel (k r) w'
    | GetOf o n k => let (w', r) := o_get Ob o n w in run fuel (k r) w'
    | SetOf o n v k => let (w', r) := o_set Ob o n v w in run fuel (k r) w'
    | CallOf o args k => let (w', r) := o_call Ob o args w in run fuel (k r) w'
    | Act f k => run fuel (k (f w)) (f w)
    end.
End Machine.
Arguments objects : clear implicits. Arguments prog : clear implicits.
Arguments Objects {V A M}.
