(** Model of big/itertools.py: class PushbackIterator. *)
From Verif Require Export PyBase.

(** What a Python iterator object does: next(i) returns a value, raises StopIteration or raises
    another exception; bool(i) is true or false.  Both may change the iterator. *)
Inductive response (V : Type) := Value (v : V) | Stop | Raise (e : exn).
Arguments Value {V} v. Arguments Stop {V}. Arguments Raise {V} e.
Record iterator (V I : Type) := Iterator { it_next : I -> response V * I; it_bool : I -> bool * I }.
Arguments Iterator {V I}. Arguments it_next {V I}. Arguments it_bool {V I}.

Section Pushback.
  Context {V I : Type} (it : iterator V I).
  (** big/itertools.py:21, the slots; the top of the stack comes first *)
  Record pushback := Pushback { pb_i : option I; pb_stack : list V }.
  (** big/itertools.py:23-27 (iter(iterable) is taken by the caller) *)
  Definition pb_init (iterable : option I) : pushback := Pushback iterable [].
  (** big/itertools.py:32-40 *)
  Definition pb_push (o : V) (p : pushback) : pushback := Pushback (pb_i p) (o :: pb_stack p).
  (** "if self.i": None is false, another object may be asked *)
  Definition test_i (i : option I) : bool * option I :=
    match i with None => (false, None) | Some i => let (b, i) := it_bool it i in (b, Some i) end.
  (** big/itertools.py:42-50 *)
  Definition pb_next (p : pushback) : response V * pushback :=
    match pb_stack p with
    | o :: stack => (Value o, Pushback (pb_i p) stack)
    | [] => match test_i (pb_i p) with
            | (true, Some i) => match it_next it i with
                                | (Value v, i) => (Value v, Pushback (Some i) [])
                                | (_, _) => (Stop, Pushback None [])
                                end
            | (_, i) => (Stop, Pushback i [])
            end
    end.
  (** big/itertools.py:52-66 *)
  Definition pb_next_default (default : V) (p : pushback) : response V * pushback :=
    match pb_stack p with
    | o :: stack => (Value o, Pushback (pb_i p) stack)
    | [] => match test_i (pb_i p) with
            | (true, Some i) => match it_next it i with
                                | (Value v, i) => (Value v, Pushback (Some i) [])
                                | (Stop, _) => (Value default, Pushback None [])
                                | (Raise e, i) => (Raise e, Pushback (Some i) [])
                                end
            | (_, i) => (Value default, Pushback i [])
            end
    end.
  (** big/itertools.py:68-78 *)
  Definition pb_bool (p : pushback) : result bool * pushback :=
    match pb_stack p with
    | _ :: _ => (Ok true, p)
    | [] => match test_i (pb_i p) with
            | (true, Some i) => match it_next it i with
                                | (Value o, i) => (Ok true, pb_push o (Pushback (Some i) []))
                                | (Stop, _) => (Ok false, Pushback None [])
                                | (Raise e, i) => (Err e, Pushback (Some i) [])
                                end
            | (_, i) => (Ok false, Pushback i [])
            end
    end.
End Pushback.
Arguments Pushback {V I}. Arguments pb_i {V I}. Arguments pb_stack {V I}. Arguments pushback : clear implicits.
(** A PushbackIterator is an iterator itself; exceptions of its __bool__ are not representable
    in [iterator] (see the theorems: there are none over iterators that do not raise). *)
Definition pb_iterator {V I} (it : iterator V I) : iterator V (pushback V I) :=
  Iterator (pb_next it) (fun p => match pb_bool it p with (Ok b, p) => (b, p) | (Err _, p) => (true, p) end).

(** The calls a program makes, and what it sees. *)
Inductive pb_op (V : Type) := Next | NextDefault (default : V) | Push (o : V) | Bool.
Arguments Next {V}. Arguments NextDefault {V} default. Arguments Push {V} o. Arguments Bool {V}.
Inductive seen (V : Type) := Got (v : V) | Exhausted | Truth (b : bool) | Pushed | Raised (e : exn).
Arguments Got {V} v. Arguments Exhausted {V}. Arguments Truth {V} b. Arguments Pushed {V}. Arguments Raised {V} e.
Definition see {V} (r : response V) : seen V := match r with Value v => Got v | Stop => Exhausted | Raise e => Raised e end.
Definition pb_step {V I} (it : iterator V I) (p : pushback V I) (o : pb_op V) : seen V * pushback V I :=
  match o with
  | Next => let (r, p) := pb_next it p in (see r, p)
  | NextDefault d => let (r, p) := pb_next_default it d p in (see r, p)
  | Push v => (Pushed, pb_push v p)
  | Bool => let (r, p) := pb_bool it p in (match r with Ok b => Truth b | Err e => Raised e end, p)
  end.
Fixpoint pb_run {V I} (it : iterator V I) (p : pushback V I) (ops : list (pb_op V)) : list (seen V) :=
  match ops with [] => [] | o :: ops => let (x, p) := pb_step it p o in x :: pb_run it p ops end.
