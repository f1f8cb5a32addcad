(** Property theorems for big.heap (C01-C05). *)
From Verif Require Import PyBase PyBaseProof HeapModel HeapSpec HeapProof.

(** C01: any history of calls behaves as on a multiset. *)
Theorem C01_heap_is_multiset :
  forall (A : Type) (ltb eqb : A -> A -> bool), strict_weak ltb ->
  forall (init : list A) (ops : list (hop A)) (h : heap A) (outs : list (result (option A))),
  hrun ltb eqb (heap_init ltb init) ops = (h, outs) ->
  mrun ltb eqb init ops (heap_queue ltb h) outs /\
  heap_len h = length (heap_queue ltb h) /\
  (heap_bool h = true <-> heap_queue ltb h <> []) /\
  (forall o, heap_contains eqb h o = true <-> exists x, In x (heap_queue ltb h) /\ eqb x o = true).
Proof. exact @heap_multiset. Qed.
Print Assumptions C01_heap_is_multiset.

(** C01: heap[0] is a least element, IndexError exactly when the heap is empty. *)
Theorem C01_heap_first_is_least :
  forall (A : Type) (ltb eqb : A -> A -> bool), strict_weak ltb ->
  forall (init : list A) (ops : list (hop A)) (h : heap A) (outs : list (result (option A))),
  hrun ltb eqb (heap_init ltb init) ops = (h, outs) ->
  match heap_getitem ltb h (IInt 0) with
  | Ok (One x) => least ltb x (heap_queue ltb h)
  | Ok (Many _) => False
  | Err e => e = IndexError /\ heap_queue ltb h = []
  end.
Proof. exact @heap_first. Qed.
Print Assumptions C01_heap_first_is_least.

(** C01: a call that raises changes nothing at all. *)
Theorem C01_heap_failed_call_changes_nothing :
  forall (A : Type) (ltb eqb : A -> A -> bool) (h : heap A) (op : hop A) (h' : heap A) (e : exn),
  hstep ltb eqb h op = (h', Err e) -> h' = h.
Proof. exact @hstep_fail. Qed.
Print Assumptions C01_heap_failed_call_changes_nothing.

Example C01_nonvacuous :
  strict_weak Z.ltb /\
  hrun Z.ltb Z.eqb (heap_init Z.ltb [5; 3; 9; 1; 3]%Z)
    [Popleft; Append 4%Z; Remove 3%Z; Remove 77%Z; AppendAndPopleft 0%Z; PopleftAndAppend 8%Z; Extend [2; 2]%Z; Popleft]
  = (mkHeap [2; 5; 4; 9; 8]%Z 7,
     [Ok (Some 1); Ok None; Ok None; Err ValueError; Ok (Some 0); Ok (Some 3); Ok None; Ok (Some 2)]%Z).
Proof. split; [exact (proj1 Z_strict_total) | vm_compute; reflexivity]. Qed.

(** C02: iteration yields every element once, in ascending order: the first [f] calls
    of __next__ return the first [f] elements of one ascending permutation of the
    contents, and then StopIteration. *)
Theorem C02_heap_iteration :
  forall (A : Type) (ltb eqb : A -> A -> bool), strict_weak ltb ->
  forall (init : list A) (ops : list (hop A)) (h : heap A) (outs : list (result (option A))),
  hrun ltb eqb (heap_init ltb init) ops = (h, outs) ->
  exists L, ascending ltb L /\ Permutation L (heap_queue ltb h) /\
    forall f, drain ltb f h (heap_iter h) = (firstn f L, if f <=? heap_len h then None else Some StopIteration).
Proof. exact @heap_iteration. Qed.
Print Assumptions C02_heap_iteration.

(** C02: .queue is sorted; when ties are identical, list(heap) is exactly heap.queue. *)
Theorem C02_heap_queue_sorted :
  forall (A : Type) (ltb : A -> A -> bool), strict_weak ltb ->
  forall h : heap A, Permutation (heap_queue ltb h) (h_queue h) /\ ascending ltb (heap_queue ltb h).
Proof. exact @heap_queue_spec. Qed.
Print Assumptions C02_heap_queue_sorted.

Theorem C02_heap_iteration_is_queue :
  forall (A : Type) (ltb eqb : A -> A -> bool), strict_total ltb ->
  forall (init : list A) (ops : list (hop A)) (h : heap A) (outs : list (result (option A))),
  hrun ltb eqb (heap_init ltb init) ops = (h, outs) ->
  drain ltb (S (heap_len h)) h (heap_iter h) = (heap_queue ltb h, Some StopIteration).
Proof. exact @iteration_is_queue. Qed.
Print Assumptions C02_heap_iteration_is_queue.

Example C02_nonvacuous :
  let h := fst (hrun Z.ltb Z.eqb (heap_init Z.ltb [5; 3; 9; 1; 3]%Z) [Append 4%Z; Popleft]) in
  drain Z.ltb 6 h (heap_iter h) = ([3; 3; 4; 5; 9]%Z, Some StopIteration).
Proof. vm_compute; reflexivity. Qed.

(** C03: iterators notice every successful mutation, and only those. *)
Theorem C03_iterator_invalidated_iff_mutated :
  forall (A : Type) (ltb eqb : A -> A -> bool), strict_weak ltb ->
  forall (init : list A) (ops : list (hop A)) (h : heap A) (outs : list (result (option A)))
         (evs : list (hev A)) (h' : heap A) (it' : hiter A) (eouts : list (result (option A))),
  hrun ltb eqb (heap_init ltb init) ops = (h, outs) ->
  evrun ltb eqb h (heap_iter h) evs = (h', it', eouts) ->
  if some_mutation evs eouts
  then snd (iter_next ltb h' it') = Err RuntimeError
  else snd (iter_next ltb h' it') <> Err RuntimeError.
Proof. exact @iterator_guard. Qed.
Print Assumptions C03_iterator_invalidated_iff_mutated.

Example C03_nonvacuous :
  let h := heap_init Z.ltb [5; 3; 9]%Z in
  snd (evrun Z.ltb Z.eqb h (heap_iter h) [Nx; Mut (Remove 4%Z); Nx; Mut (Append 1%Z); Nx])
  = [Ok (Some 3%Z); Err ValueError; Ok (Some 5%Z); Ok None; Err RuntimeError].
Proof. vm_compute; reflexivity. Qed.

(** C04: slicing a heap is slicing the sorted list, for every slice. *)
Theorem C04_heap_slice :
  forall (A : Type) (ltb : A -> A -> bool), strict_total ltb ->
  forall (h : heap A) (s : slice),
  heap_getitem ltb h (ISlice s) = rmap Many (py_slice (heap_queue ltb h) s).
Proof. exact @getitem_slice. Qed.
Print Assumptions C04_heap_slice.

(** C04: indexing a heap is indexing the sorted list, for ints i >= 0, i <= -10, and
    i = -1 on a non-empty heap.  Missing: -9 <= i <= -2, and -1 on an empty heap,
    where the claim is false (next theorems). *)
Theorem C04_heap_index_partial :
  forall (A : Type) (ltb eqb : A -> A -> bool), strict_total ltb ->
  forall (init : list A) (ops : list (hop A)) (h : heap A) (outs : list (result (option A))) (i : Z),
  hrun ltb eqb (heap_init ltb init) ops = (h, outs) ->
  (i <= -10 \/ i = -1 /\ heap_len h <> 0%nat \/ 0 <= i)%Z ->
  heap_getitem ltb h (IInt i) = rmap One (py_index (heap_queue ltb h) i).
Proof. exact @getitem_int. Qed.
Print Assumptions C04_heap_index_partial.

(** C04 is false of the code for small negative ints: heap[-3] of [1;2;3;4;5] is 4. *)
Theorem C04_heap_index_refuted :
  exists (h : heap Z) (i : Z), h = heap_init Z.ltb [1; 2; 3; 4; 5]%Z /\
    heap_getitem Z.ltb h (IInt i) <> rmap One (py_index (heap_queue Z.ltb h) i).
Proof. exists (heap_init Z.ltb [1; 2; 3; 4; 5]%Z), (-3)%Z. split; [reflexivity|]. vm_compute. discriminate. Qed.
Print Assumptions C04_heap_index_refuted.
Theorem C04_heap_index_empty_refuted :
  heap_getitem Z.ltb (heap_init Z.ltb []) (IInt (-1)) = Err ValueError /\
  py_index (heap_queue Z.ltb (heap_init Z.ltb [])) (-1) = Err IndexError.
Proof. split; reflexivity. Qed.
Print Assumptions C04_heap_index_empty_refuted.

(** C04: what those indices do return: IndexError when too short, the largest element
    when len == -i, and otherwise always the second largest. *)
Theorem C04_heap_small_negative_index :
  forall (A : Type) (ltb : A -> A -> bool), strict_total ltb ->
  forall (h : heap A) (i : Z), (-10 < i < -1)%Z ->
  heap_getitem ltb h (IInt i) =
    (if Z.of_nat (heap_len h) <? - i then Err IndexError
     else rmap One (py_index (heap_queue ltb h) (if Z.of_nat (heap_len h) =? - i then -1 else -2)))%Z.
Proof. exact @getitem_neg. Qed.
Print Assumptions C04_heap_small_negative_index.

Example C04_nonvacuous :
  strict_total Z.ltb /\
  let h := heap_init Z.ltb [5; 3; 9; 1; 3; 7]%Z in
  heap_getitem Z.ltb h (ISlice (mkSlice (Some (-3)%Z) None None)) = Ok (Many [5; 7; 9]%Z) /\
  heap_getitem Z.ltb h (IInt 3) = Ok (One 5%Z) /\ heap_getitem Z.ltb h (IInt (-1)) = Ok (One 9%Z).
Proof. split; [exact Z_strict_total | vm_compute; auto]. Qed.

(** C05: heap equality is multiset equality of the contents. *)
Theorem C05_heap_eq_is_multiset_eq :
  forall (A : Type) (ltb eqb : A -> A -> bool), strict_total ltb -> decides_eq eqb ->
  forall h1 h2 : heap A,
  heap_eq ltb eqb h1 h2 = true <-> Permutation (heap_queue ltb h1) (heap_queue ltb h2).
Proof. exact @heap_eq_multiset. Qed.
Print Assumptions C05_heap_eq_is_multiset_eq.

(** C05: heap objects sharing memory nowhere: whatever objects are created (by the
    constructor or copy()) and whatever calls are made on them, each object's value is
    what it would be if every heap were an independent value, a copy starting as the
    original's value at the moment of copying. *)
Theorem C05_heap_objects_independent :
  forall (A : Type) (ltb eqb : A -> A -> bool) (ops : list (wop A)) (i : nat),
  w_heap (wrun ltb eqb wempty ops) i = nth_error (fold_left (pstep ltb eqb) ops []) i.
Proof. exact @heaps_independent. Qed.
Print Assumptions C05_heap_objects_independent.

Example C05_nonvacuous :
  decides_eq Z.eqb /\
  heap_eq Z.ltb Z.eqb (heap_init Z.ltb [3; 1; 2; 1]%Z) (fst (hrun Z.ltb Z.eqb (heap_init Z.ltb [2; 9]%Z) [Append 1; Append 3; Append 1; Remove 9]%Z)) = true /\
  let w := wrun Z.ltb Z.eqb wempty [WNew [3; 1]%Z; WCopy 0; WCall 0 Popleft; WCall 1 (Append 0%Z)] in
  option_map h_queue (w_heap w 0) = Some [3]%Z /\ option_map h_queue (w_heap w 1) = Some [0; 3; 1]%Z.
Proof. split; [exact Z_decides_eq | vm_compute; auto]. Qed.
