(** Model of big/heap.py when comparing two values may raise an exception, at any comparison, and when the iterable given to extend raises.
    heapq is CPython's C implementation (Modules/_heapqmodule.c), which exchanges two elements at a time, so the list is always complete. *)
From Verif Require Export PyBase HeapModel.

Section Hexn.
  (** [lt n x y] is what the n-th comparison says when it is x < y, [eq n x y] when it is x == y *)
  Context {A : Type} (lt eq : nat -> A -> A -> result bool).
  (** the list, the number of comparisons made so far, and how the call ended *)
  Definition ended := (list A * nat * result unit)%type.
  Definition swap (l : list A) (i j : nat) (x : A) : list A := upd (upd l i (nth j l x)) j x.

  (** _heapqmodule.c siftdown: [fuel] is [pos]; newitem is arr[pos] *)
  Fixpoint siftdown_c (fuel : nat) (l : list A) (newitem : A) (startpos pos n : nat) : ended :=
    match fuel with
    | O => (l, n, Ok tt)
    | S f =>
        if startpos <? pos then
          let parentpos := (pos - 1) / 2 in
          match lt n newitem (nth parentpos l newitem) with
          | Err e => (l, S n, Err e)
          | Ok false => (l, S n, Ok tt)
          | Ok true => siftdown_c f (swap l pos parentpos newitem) newitem startpos parentpos (S n)
          end
        else (l, n, Ok tt)
    end.
  (** _heapqmodule.c siftup: the loop down to a leaf, then siftdown; [fuel] is the length of the list *)
  Fixpoint siftup_c (fuel : nat) (l : list A) (newitem : A) (startpos pos n : nat) : ended :=
    match fuel with
    | O => siftdown_c pos l newitem startpos pos n
    | S f =>
        if pos <? length l / 2 then
          let childpos := 2 * pos + 1 in
          if childpos + 1 <? length l then
            match lt n (nth childpos l newitem) (nth (childpos + 1) l newitem) with
            | Err e => (l, S n, Err e)
            | Ok b => let childpos := if b then childpos else childpos + 1 in
                      siftup_c f (swap l pos childpos newitem) newitem startpos childpos (S n)
            end
          else siftup_c f (swap l pos childpos newitem) newitem startpos childpos n
        else siftdown_c pos l newitem startpos pos n
    end.
  Definition siftup_at (l : list A) (pos n : nat) : ended :=
    match nth_error l pos with Some x => siftup_c (length l) l x pos pos n | None => (l, n, Ok tt) end.
  (** heapify: siftup at each inner position, in the order [order (len(list))] (from the last one down; for long lists another one) *)
  Context (order : nat -> list nat).
  Fixpoint siftups (ps : list nat) (l : list A) (n : nat) : ended :=
    match ps with
    | [] => (l, n, Ok tt)
    | p :: ps => match siftup_at l p n with (l, n, Ok _) => siftups ps l n | (l, n, Err e) => (l, n, Err e) end
    end.
  Definition heapify_c (l : list A) (n : nat) : ended := siftups (order (length l)) l n.
  (** heappush: list.append, then siftdown *)
  Definition heappush_c (l : list A) (x : A) (n : nat) : ended := siftdown_c (length l) (l ++ [x]) x 0 (length l) n.
  (** heappop: the last element is removed and put in the place of the first one, then siftup; if that raises, the first one is dropped *)
  Definition heappop_c (l : list A) (n : nat) : list A * nat * result A :=
    match rev l with
    | [] => (l, n, Err IndexError)
    | lastelt :: r =>
        match rev r with
        | [] => ([], n, Ok lastelt)
        | returnitem :: t => match siftup_at (lastelt :: t) 0 n with (l, n, r) => (l, n, rmap (fun _ => returnitem) r) end
        end
    end.
  (** heapreplace *)
  Definition heapreplace_c (l : list A) (x : A) (n : nat) : list A * nat * result A :=
    match l with
    | [] => (l, n, Err IndexError)
    | returnitem :: t => match siftup_at (x :: t) 0 n with (l, n, r) => (l, n, rmap (fun _ => returnitem) r) end
    end.
  (** heappushpop *)
  Definition heappushpop_c (l : list A) (x : A) (n : nat) : list A * nat * result A :=
    match l with
    | [] => (l, n, Ok x)
    | top :: t =>
        match lt n top x with
        | Err e => (l, S n, Err e)
        | Ok false => (l, S n, Ok x)
        | Ok true => match siftup_at (x :: t) 0 (S n) with (l, n, r) => (l, n, rmap (fun _ => top) r) end
        end
    end.
  (** list.remove *)
  Fixpoint list_remove_c (o : A) (l : list A) (n : nat) : list A * nat * result unit :=
    match l with
    | [] => ([], n, Err ValueError)
    | x :: t => match eq n x o with
                | Err e => (x :: t, S n, Err e)
                | Ok true => (t, S n, Ok tt)
                | Ok false => match list_remove_c o t (S n) with (t, n, r) => (x :: t, n, r) end
                end
    end.

  (** The mutating calls; the iterable of extend yields values, and may end with an exception. *)
  Inductive xop :=
  | XAppend (o : A) | XClear | XExtend (i : list A) (up : option exn) | XRemove (o : A) | XPopleft
  | XAppendAndPopleft (o : A) | XPopleftAndAppend (o : A).
  (** self._version is incremented only if nothing was raised *)
  Definition finish (h : heap A) {B} (f : B -> option A) (r : list A * nat * result B) : heap A * nat * result (option A) :=
    match r with
    | (q, n, Ok v) => (mkHeap q (h_version h + 1), n, Ok (f v))
    | (q, n, Err e) => (mkHeap q (h_version h), n, Err e)
    end.
  (** big/heap.py:64-101 *)
  Definition xstep (h : heap A) (n : nat) (op : xop) : heap A * nat * result (option A) :=
    match op with
    | XAppend o => finish h (fun _ => None) (heappush_c (h_queue h) o n)
    | XClear => finish h (fun _ => None) ([], n, Ok tt)
    | XExtend i up =>
        (* list.extend keeps what the iterable yielded before it raised *)
        match up with
        | Some e => finish h (fun _ : unit => None) (h_queue h ++ i, n, Err e)
        | None => finish h (fun _ => None) (heapify_c (h_queue h ++ i) n)
        end
    | XRemove o =>
        match list_remove_c o (h_queue h) n with
        | (q, n, Ok _) => finish h (fun _ => None) (heapify_c q n)
        | (q, n, Err e) => finish h (fun _ : unit => None) (q, n, Err e)
        end
    | XPopleft => finish h Some (heappop_c (h_queue h) n)
    | XAppendAndPopleft o => finish h Some (heappushpop_c (h_queue h) o n)
    | XPopleftAndAppend o => finish h Some (heapreplace_c (h_queue h) o n)
    end.
  (** a history of calls; the caller catches every exception and goes on *)
  Fixpoint xrun (h : heap A) (n : nat) (ops : list xop) : heap A * nat * list (result (option A)) :=
    match ops with
    | [] => (h, n, [])
    | op :: ops => let '(h, n, r) := xstep h n op in let '(h, n, rs) := xrun h n ops in (h, n, r :: rs)
    end.
  (** big/heap.py:160-165 HeapIterator.__next__ *)
  Definition xnext (h : heap A) (it : hiter A) (n : nat) : hiter A * nat * result A :=
    if negb (it_version it =? h_version h)%Z then (it, n, Err RuntimeError)
    else match it_copy it with
         | [] => (it, n, Err StopIteration)
         | _ => let '(q, n, r) := heappop_c (it_copy it) n in (mkIter q (it_version it), n, r)
         end.
End Hexn.
Arguments xop A : clear implicits.
