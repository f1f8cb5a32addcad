(** Shared vocabulary for the models: exceptions as values, Python lists,
    indexing, slicing, stable sorting.  Nothing here models code of /repo; it
    transcribes the documented behaviour of Python built-ins that /repo calls. *)
From Coq Require Export List Arith ZArith Lia Bool Permutation Sorted.
Export ListNotations.

(** Python exception classes that the modelled code raises. *)
Inductive exn :=
| ValueError | TypeError | IndexError | KeyError | RuntimeError | StopIteration
| AssertionError | SyntaxError | IndentationError | OverflowError | RecursionError
| TransitionError | CycleError | AttributeError | OtherError (tag : Z).

(** The result of a call: a returned value or a raised exception. *)
Inductive result (A : Type) := Ok (a : A) | Err (e : exn).
Arguments Ok {A} a.
Arguments Err {A} e.

Definition rmap {A B} (f : A -> B) (r : result A) : result B :=
  match r with Ok a => Ok (f a) | Err e => Err e end.
Definition rbind {A B} (r : result A) (f : A -> result B) : result B :=
  match r with Ok a => f a | Err e => Err e end.

(** [l[i] = x] for an in-range [i]; out-of-range leaves the list alone (callers
    are proved to stay in range). *)
Fixpoint upd {A} (l : list A) (i : nat) (x : A) : list A :=
  match l, i with
  | [], _ => []
  | _ :: t, O => x :: t
  | h :: t, S j => h :: upd t j x
  end.

(** Python's [l[i]] for an int [i]: negative counts from the end, IndexError
    when out of range. *)
Definition py_index {A} (l : list A) (i : Z) : result A :=
  let n := Z.of_nat (length l) in
  let j := if (i <? 0)%Z then (i + n)%Z else i in
  if ((0 <=? j) && (j <? n))%Z%bool then
    match nth_error l (Z.to_nat j) with Some x => Ok x | None => Err IndexError end
  else Err IndexError.

(** Python slice objects; [None] for an omitted field. *)
Record slice := mkSlice { sl_start : option Z; sl_stop : option Z; sl_step : option Z }.

(** [slice.indices(n)] (CPython PySlice_AdjustIndices). *)
Definition slice_start (n step : Z) (o : option Z) : Z :=
  let lower := (if step <? 0 then -1 else 0)%Z in
  let upper := (if step <? 0 then n - 1 else n)%Z in
  match o with
  | None => if (step <? 0)%Z then upper else lower
  | Some v => if (v <? 0)%Z then Z.max (v + n) lower else Z.min v upper
  end.
Definition slice_stop (n step : Z) (o : option Z) : Z :=
  let lower := (if step <? 0 then -1 else 0)%Z in
  let upper := (if step <? 0 then n - 1 else n)%Z in
  match o with
  | None => if (step <? 0)%Z then lower else upper
  | Some v => if (v <? 0)%Z then Z.max (v + n) lower else Z.min v upper
  end.
(** Number of elements of [range(a, b, step)]. *)
Definition range_len (a b step : Z) : nat :=
  if (0 <? step)%Z then (if (a <? b)%Z then Z.to_nat ((b - a - 1) / step + 1) else 0)
  else (if (b <? a)%Z then Z.to_nat ((a - b - 1) / (- step) + 1) else 0).
Definition py_range (a b step : Z) : list Z :=
  map (fun k => (a + Z.of_nat k * step)%Z) (seq 0 (range_len a b step)).
(** [l[start:stop:step]]. *)
Definition py_slice {A} (l : list A) (s : slice) : result (list A) :=
  let n := Z.of_nat (length l) in
  let step := match sl_step s with None => 1%Z | Some k => k end in
  if (step =? 0)%Z then Err ValueError else
  let a := slice_start n step (sl_start s) in
  let b := slice_stop n step (sl_stop s) in
  Ok (flat_map (fun i => match nth_error l (Z.to_nat i) with Some x => [x] | None => [] end)
        (py_range a b step)).

(** Stable sorting (list.sort / sorted), driven only by [<]. *)
Section Sort.
  Context {A : Type} (ltb : A -> A -> bool).
  Fixpoint insert (x : A) (l : list A) : list A :=
    match l with
    | [] => [x]
    | y :: t => if ltb y x then y :: insert x t else x :: y :: t
    end.
  (* sorted(l) *)
  Fixpoint sort (l : list A) : list A :=
    match l with [] => [] | x :: t => insert x (sort t) end.
  (* sorted(l, reverse=True): stable, equal elements keep their original order *)
  Definition sort_rev (l : list A) : list A := rev (sort (rev l)).
End Sort.

(** A strict weak order given by a boolean "<" (what Python's sort and heapq need). *)
Definition strict_weak {A} (ltb : A -> A -> bool) : Prop :=
  (forall a, ltb a a = false) /\
  (forall a b, ltb a b = true -> ltb b a = false) /\
  (forall a b c, ltb b a = false -> ltb c b = false -> ltb c a = false).
(** A strict total order: moreover incomparable elements are equal. *)
Definition strict_total {A} (ltb : A -> A -> bool) : Prop :=
  strict_weak ltb /\ (forall a b, ltb a b = false -> ltb b a = false -> a = b).
(** [eqb] decides equality of elements. *)
Definition decides_eq {A} (eqb : A -> A -> bool) : Prop :=
  forall a b, eqb a b = true <-> a = b.

(** ascending: no element is smaller than an earlier one *)
Definition ascending {A} (ltb : A -> A -> bool) (l : list A) : Prop :=
  StronglySorted (fun a b => ltb b a = false) l.
