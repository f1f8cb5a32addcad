(** Specification vocabulary for big.heap: a heap is a multiset of values.
    Multisets are lists up to [Permutation].  Nothing here mentions heapq. *)
From Verif Require Import PyBase HeapModel.

Section HeapSpec.
  Context {A : Type} (ltb eqb : A -> A -> bool).

  (** [x] is a least element of the multiset [m] *)
  Definition least (x : A) (m : list A) : Prop :=
    In x m /\ forall y, In y m -> ltb y x = false.

  (** [mstep m op m' out]: performing the call [op] on the multiset [m] leaves the
      multiset [m'] and returns/raises [out]. *)
  Inductive mstep : list A -> hop A -> list A -> result (option A) -> Prop :=
  | ms_append m o m' : Permutation m' (o :: m) -> mstep m (Append o) m' (Ok None)
  | ms_clear m : mstep m Clear [] (Ok None)
  | ms_extend m i m' : Permutation m' (i ++ m) -> mstep m (Extend i) m' (Ok None)
  | ms_remove m o x m' : eqb x o = true -> Permutation m (x :: m') -> mstep m (Remove o) m' (Ok None)
  | ms_remove_missing m o m' : (forall x, In x m -> eqb x o = false) -> Permutation m' m ->
      mstep m (Remove o) m' (Err ValueError)
  | ms_popleft m x m' : least x m -> Permutation m (x :: m') -> mstep m Popleft m' (Ok (Some x))
  | ms_popleft_empty : mstep [] Popleft [] (Err IndexError)
  | ms_append_and_popleft m o x m' : least x (o :: m) -> Permutation (o :: m) (x :: m') ->
      mstep m (AppendAndPopleft o) m' (Ok (Some x))
  | ms_popleft_and_append m o x r m' : least x m -> Permutation m (x :: r) -> Permutation m' (o :: r) ->
      mstep m (PopleftAndAppend o) m' (Ok (Some x))
  | ms_popleft_and_append_empty o : mstep [] (PopleftAndAppend o) [] (Err IndexError).

  (** a whole history of calls *)
  Inductive mrun : list A -> list (hop A) -> list A -> list (result (option A)) -> Prop :=
  | mr_nil m m' : Permutation m m' -> mrun m [] m' []
  | mr_cons m op m1 out ops m2 outs :
      mstep m op m1 out -> mrun m1 ops m2 outs -> mrun m (op :: ops) m2 (out :: outs).
End HeapSpec.

(** Interleavings of calls on a heap with calls of one of its iterators. *)
Inductive hev (A : Type) := Mut (op : hop A) | Nx.
Arguments Mut {A} op.
Arguments Nx {A}.
Section HeapEv.
  Context {A : Type} (ltb eqb : A -> A -> bool).
  Fixpoint evrun (h : heap A) (it : hiter A) (evs : list (hev A)) : heap A * hiter A * list (result (option A)) :=
    match evs with
    | [] => (h, it, [])
    | Mut op :: t => let (h1, o) := hstep ltb eqb h op in
                     let '(h2, it2, os) := evrun h1 it t in (h2, it2, o :: os)
    | Nx :: t => let (it1, o) := iter_next ltb h it in
                 let '(h2, it2, os) := evrun h it1 t in (h2, it2, rmap Some o :: os)
    end.
  (** did some mutating call of the history succeed (not raise)? *)
  Fixpoint some_mutation (evs : list (hev A)) (outs : list (result (option A))) : bool :=
    match evs, outs with
    | Mut _ :: t, Ok _ :: os => true
    | _ :: t, _ :: os => some_mutation t os
    | _, _ => false
    end.
End HeapEv.

(** Independence of heap objects, as a specification: every object is a value of its
    own.  [phist i ops] is the history of the i-th created object alone: how it was
    created and the calls made on it. *)
Section HeapIndep.
  Context {A : Type} (ltb eqb : A -> A -> bool).
  (** value-semantics world: a list of independent heaps *)
  Definition pstep (hs : list (heap A)) (op : wop A) : list (heap A) :=
    match op with
    | WNew i => hs ++ [heap_init ltb i]
    | WCopy i => match nth_error hs i with
                 | Some h => hs ++ [mkHeap (h_queue h) 0]
                 | None => hs end
    | WCall i op => match nth_error hs i with
                    | Some h => upd hs i (fst (hstep ltb eqb h op))
                    | None => hs end
    end.
End HeapIndep.
