(** Specification of PushbackIterator: a sequence of values, possibly without end. *)
From Verif Require Export PushbackModel.

(** The values still to come: the n-th, or None after the end. *)
Definition sequence (V : Type) := nat -> option V.
Definition empty {V} : sequence V := fun _ => None.
Definition put {V} (v : V) (s : sequence V) : sequence V := fun n => match n with O => Some v | S n => s n end.
Definition tail {V} (s : sequence V) : sequence V := fun n => s (S n).
(** What each call shows, and the values still to come after it. *)
Definition spec_step {V} (s : sequence V) (o : pb_op V) : seen V * sequence V :=
  match o with
  | Next => match s 0 with Some v => (Got v, tail s) | None => (Exhausted, s) end
  | NextDefault d => match s 0 with Some v => (Got v, tail s) | None => (Got d, s) end
  | Push v => (Pushed, put v s)
  | Bool => (Truth (match s 0 with Some _ => true | None => false end), s)
  end.
Fixpoint spec_run {V} (s : sequence V) (ops : list (pb_op V)) : list (seen V) :=
  match ops with [] => [] | o :: ops => let (x, s) := spec_step s o in x :: spec_run s ops end.
(** The values an iterator gives: those before it first stops or raises. *)
Fixpoint values {V I} (it : iterator V I) (i : I) (n : nat) : option V :=
  match it_next it i with
  | (Value v, i) => match n with O => Some v | S n => values it i n end
  | _ => None
  end.
(** An iterator that raises nothing but StopIteration, whose truth value may be tested without
    losing values, and is not false while it has values.  (Iterators without __bool__ and
    __len__ are always true; [lawful] is an invariant of the states the iterator can reach.) *)
Definition lawful {V I} (it : iterator V I) (inv : I -> Prop) : Prop :=
  (forall i r i', inv i -> it_next it i = (r, i') -> inv i' /\ forall e, r <> Raise e) /\
  (forall i b i', inv i -> it_bool it i = (b, i') -> inv i' /\ (forall n, values it i' n = values it i n) /\ (b = false -> values it i 0 = None)).
(** An iterator over a list: the example *)
Definition list_iterator {V} : iterator V (list V) :=
  Iterator (fun l => match l with [] => (Stop, []) | v :: l => (Value v, l) end) (fun l => (true, l)).
(** An iterator that counts without end *)
Definition count : iterator nat nat := Iterator (fun n => (Value n, S n)) (fun n => (true, n)).
