(** Model of big/heap.py, on top of a transcription of CPython's Lib/heapq.py. *)
From Verif Require Import PyBase.

Section Heapq.
  Context {A : Type} (ltb : A -> A -> bool).

  (** heapq._siftdown(heap, startpos, pos), the loop.  [fuel] is [pos], which
      strictly decreases, so running out of fuel is the loop's own exit. *)
  Fixpoint siftdown_loop (fuel : nat) (heap : list A) (newitem : A) (startpos pos : nat) : list A :=
    match fuel with
    | O => upd heap pos newitem
    | S f =>
      if startpos <? pos then
        let parentpos := (pos - 1) / 2 in
        let parent := nth parentpos heap newitem in
        if ltb newitem parent
        then siftdown_loop f (upd heap pos parent) newitem startpos parentpos
        else upd heap pos newitem
      else upd heap pos newitem
    end.
  Definition siftdown (heap : list A) (startpos pos : nat) : list A :=
    match nth_error heap pos with
    | Some newitem => siftdown_loop pos heap newitem startpos pos
    | None => heap
    end.

  (** heapq._siftup, the "bubble up the smaller child until hitting a leaf" loop;
      returns the list and the final leaf position.  [fuel] = len(heap) suffices
      because [pos] strictly increases. *)
  Fixpoint siftup_loop (fuel : nat) (heap : list A) (newitem : A) (endpos pos : nat) : list A * nat :=
    match fuel with
    | O => (heap, pos)
    | S f =>
      let childpos := 2 * pos + 1 in
      if childpos <? endpos then
        let rightpos := childpos + 1 in
        let childpos' :=
          if (rightpos <? endpos) && negb (ltb (nth childpos heap newitem) (nth rightpos heap newitem))
          then rightpos else childpos in
        siftup_loop f (upd heap pos (nth childpos' heap newitem)) newitem endpos childpos'
      else (heap, pos)
    end.
  Definition siftup (heap : list A) (pos : nat) : list A :=
    match nth_error heap pos with
    | Some newitem =>
      let (h, p) := siftup_loop (length heap) heap newitem (length heap) pos in
      siftdown (upd h p newitem) pos p
    | None => heap
    end.

  (** heapq.heapify: for i in reversed(range(n//2)): _siftup(x, i) *)
  Fixpoint heapify_loop (i : nat) (x : list A) : list A :=
    match i with O => x | S j => heapify_loop j (siftup x j) end.
  Definition heapify (x : list A) : list A := heapify_loop (length x / 2) x.

  (** heapq.heappush *)
  Definition heappush (heap : list A) (item : A) : list A :=
    let h := heap ++ [item] in siftdown h 0 (length h - 1).

  (** heapq.heappop: list.pop() then root replacement *)
  Definition heappop (heap : list A) : option (A * list A) :=
    match rev heap with
    | [] => None
    | lastelt :: r =>
      match rev r with
      | [] => Some (lastelt, [])
      | returnitem :: t => Some (returnitem, siftup (lastelt :: t) 0)
      end
    end.

  (** heapq.heapreplace *)
  Definition heapreplace (heap : list A) (item : A) : option (A * list A) :=
    match heap with
    | [] => None
    | returnitem :: t => Some (returnitem, siftup (item :: t) 0)
    end.

  (** heapq.heappushpop *)
  Definition heappushpop (heap : list A) (item : A) : A * list A :=
    match heap with
    | x :: t => if ltb x item then (x, siftup (item :: t) 0) else (item, heap)
    | [] => (item, heap)
    end.

  (** heapq.nsmallest(n, q) == sorted(q)[:n] and heapq.nlargest(n, q) ==
      sorted(q, reverse=True)[:n] (documented equivalences; empty for n <= 0). *)
  Definition nsmallest (n : Z) (q : list A) : list A := firstn (Z.to_nat n) (sort ltb q).
  Definition nlargest (n : Z) (q : list A) : list A := firstn (Z.to_nat n) (sort_rev ltb q).

  (** max(q): ValueError on an empty sequence, the first maximal element otherwise *)
  Definition py_max (q : list A) : result A :=
    match q with
    | [] => Err ValueError
    | x :: t => Ok (fold_left (fun m y => if ltb m y then y else m) t x)
    end.
End Heapq.

Section Heap.
  Context {A : Type} (ltb eqb : A -> A -> bool).

  (** big/heap.py:52-58, attributes _queue and _version *)
  Record heap := mkHeap { h_queue : list A; h_version : Z }.

  (** big/heap.py:52-58 Heap.__init__ (an empty iterable and [None] both give the empty queue) *)
  Definition heap_init (i : list A) : heap :=
    match i with
    | [] => mkHeap [] 0
    | _ => mkHeap (heapify ltb i) 0
    end.

  (** The public mutating calls. *)
  Inductive hop :=
  | Append (o : A) | Clear | Extend (i : list A) | Remove (o : A) | Popleft
  | AppendAndPopleft (o : A) | PopleftAndAppend (o : A).

  (** list.remove: delete the first element equal to [o]; None = ValueError *)
  Fixpoint list_remove (o : A) (l : list A) : option (list A) :=
    match l with
    | [] => None
    | x :: t => if eqb x o then Some t
                else match list_remove o t with Some t' => Some (x :: t') | None => None end
    end.

  (** What a call returns: [Ok None] for Python's None. *)
  Definition hout := result (option A).
  Definition bump (h : heap) (q : list A) : heap := mkHeap q (h_version h + 1).

  (** big/heap.py:64-101: append, clear, extend, remove, popleft,
      append_and_popleft, popleft_and_append.  An exception raised by the heapq /
      list call happens before [_version] is incremented and before [_queue]
      changes. *)
  Definition hstep (h : heap) (op : hop) : heap * hout :=
    match op with
    | Append o => (bump h (heappush ltb (h_queue h) o), Ok None)
    | Clear => (bump h [], Ok None)
    | Extend i => (bump h (heapify ltb (h_queue h ++ i)), Ok None)
    | Remove o =>
      match list_remove o (h_queue h) with
      | Some q => (bump h (heapify ltb q), Ok None)
      | None => (h, Err ValueError)
      end
    | Popleft =>
      match heappop ltb (h_queue h) with
      | Some (x, q) => (bump h q, Ok (Some x))
      | None => (h, Err IndexError)
      end
    | AppendAndPopleft o =>
      let (x, q) := heappushpop ltb (h_queue h) o in (bump h q, Ok (Some x))
    | PopleftAndAppend o =>
      match heapreplace ltb (h_queue h) o with
      | Some (x, q) => (bump h q, Ok (Some x))
      | None => (h, Err IndexError)
      end
    end.

  (** a history of calls: final heap and the list of results *)
  Fixpoint hrun (h : heap) (ops : list hop) : heap * list hout :=
    match ops with
    | [] => (h, [])
    | op :: t => let (h1, o) := hstep h op in let (h2, os) := hrun h1 t in (h2, o :: os)
    end.

  (** big/heap.py:72-75 Heap.copy (a fresh object: version 0) *)
  Definition heap_copy (h : heap) : heap := mkHeap (h_queue h) 0.

  (** big/heap.py:103-107 Heap.queue *)
  Definition heap_queue (h : heap) : list A := sort ltb (h_queue h).

  (** big/heap.py:109-118: __bool__, __contains__, __eq__, __len__ (same class) *)
  Definition heap_bool (h : heap) : bool := match h_queue h with [] => false | _ => true end.
  Definition heap_contains (h : heap) (o : A) : bool := existsb (fun x => eqb x o) (h_queue h).
  Definition heap_len (h : heap) : nat := length (h_queue h).
  Fixpoint list_eqb (l1 l2 : list A) : bool :=
    match l1, l2 with
    | [], [] => true
    | x :: t1, y :: t2 => eqb x y && list_eqb t1 t2
    | _, _ => false
    end.
  Definition heap_eq (h1 h2 : heap) : bool := list_eqb (heap_queue h1) (heap_queue h2).

  (** big/heap.py:120-152 Heap.__getitem__; the argument is an int or a slice
      (anything else raises TypeError, lines 121-122, not modelled). *)
  Inductive index := IInt (i : Z) | ISlice (s : slice).
  Inductive item := One (a : A) | Many (l : list A).

  Definition heap_getitem (h : heap) (ix : index) : result item :=
    let q := h_queue h in
    let fallthrough :=
      match ix with
      | IInt i => rmap One (py_index (sort ltb q) i)
      | ISlice s => rmap Many (py_slice (sort ltb q) s)
      end in
    match ix with
    | ISlice s =>
      (* if item.step in (None, 1): *)
      let unit_step := match sl_step s with None => true | Some k => (k =? 1)%Z end in
      if unit_step then
        let length_ := Z.of_nat (length q) in
        let start := match sl_start s with None => 0%Z | Some v => v end in
        let stop := match sl_stop s with None => length_ | Some v => v end in
        let start := if (start <? 0)%Z then (start + length_)%Z else start in
        let stop := if (stop <? 0)%Z then (stop + length_)%Z else stop in
        if (start =? 0)%Z then Ok (Many (nsmallest ltb stop q))
        else if (stop =? length_)%Z then Ok (Many (rev (nlargest ltb (length_ - start) q)))
        else fallthrough
      else fallthrough
    | IInt i =>
      if (i =? 0)%Z then rmap One (py_index q 0)
      else if (i =? -1)%Z then rmap One (py_max ltb q)
      else if ((0 <? i) && (i <? 10))%Z%bool then rmap One (py_index (nsmallest ltb (i + 1) q) i)
      else if ((-10 <? i) && (i <? 0))%Z%bool then rmap One (py_index (nlargest ltb ((- i) + 1) q) i)
      else fallthrough
    end.

  (** big/heap.py:154-172 HeapIterator: a copy of the queue and the version seen
      at creation. *)
  Record hiter := mkIter { it_copy : list A; it_version : Z }.
  Definition heap_iter (h : heap) : hiter := mkIter (h_queue h) (h_version h).
  Definition iter_next (h : heap) (it : hiter) : hiter * result A :=
    if negb (it_version it =? h_version h)%Z then (it, Err RuntimeError)
    else match heappop ltb (it_copy it) with
         | None => (it, Err StopIteration)
         | Some (x, q) => (mkIter q (it_version it), Ok x)
         end.
  (** [list(heap)]: call __next__ until it raises; [fuel] bounds the calls and the
      exception that ended the loop is returned. *)
  Fixpoint drain (fuel : nat) (h : heap) (it : hiter) : list A * option exn :=
    match fuel with
    | O => ([], None)
    | S f => match iter_next h it with
             | (it', Ok x) => let (l, e) := drain f h it' in (x :: l, e)
             | (_, Err e) => ([], Some e)
             end
    end.
End Heap.
Arguments hop A : clear implicits.
Arguments heap A : clear implicits.
Arguments hiter A : clear implicits.
Arguments item A : clear implicits.

(** Heap objects in memory: an object holds a reference to its list object and its
    version; lists live in a store and are mutated in place, so aliasing is
    expressible.  [WNew] is the constructor (big/heap.py:52-58: a fresh list),
    [WCopy i] is Heap.copy (big/heap.py:72-75: the list is copied into a fresh list
    object), [WCall i op] is a mutating method call on the i-th object. *)
Record hobj := mkObj { o_ref : nat; o_version : Z }.
Record hworld (A : Type) := mkWorld { w_objs : list hobj; w_store : list (list A) }.
Arguments mkWorld {A}. Arguments w_objs {A}. Arguments w_store {A}.
Inductive wop (A : Type) := WNew (i : list A) | WCopy (i : nat) | WCall (i : nat) (op : hop A).
Arguments WNew {A}. Arguments WCopy {A}. Arguments WCall {A}.
Section World.
  Context {A : Type} (ltb eqb : A -> A -> bool).
  Definition w_deref (w : hworld A) (o : hobj) : heap A := mkHeap (nth (o_ref o) (w_store w) []) (o_version o).
  Definition w_heap (w : hworld A) (i : nat) : option (heap A) := option_map (w_deref w) (nth_error (w_objs w) i).
  Definition wstep (w : hworld A) (op : wop A) : hworld A * result (option A) :=
    match op with
    | WNew i =>
      (mkWorld (w_objs w ++ [mkObj (length (w_store w)) 0])
               (w_store w ++ [h_queue (heap_init ltb i)]), Ok None)
    | WCopy i =>
      match nth_error (w_objs w) i with
      | Some o => (mkWorld (w_objs w ++ [mkObj (length (w_store w)) 0])
                           (w_store w ++ [nth (o_ref o) (w_store w) []]), Ok None)
      | None => (w, Err TypeError)
      end
    | WCall i op =>
      match nth_error (w_objs w) i with
      | Some o =>
        let (h, out) := hstep ltb eqb (w_deref w o) op in
        (mkWorld (upd (w_objs w) i (mkObj (o_ref o) (h_version h)))
                 (upd (w_store w) (o_ref o) (h_queue h)), out)
      | None => (w, Err TypeError)
      end
    end.
  Definition wrun (w : hworld A) (ops : list (wop A)) : hworld A := fold_left (fun w op => fst (wstep w op)) ops w.
  Definition wempty : hworld A := mkWorld [] [].
End World.
