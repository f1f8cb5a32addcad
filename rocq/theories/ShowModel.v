(** Model of what big's containers show of themselves: repr() of a Heap, a View and a TopologicalSorter, and their print() methods.
    A text is represented by what is put into it; the texts around that (class names, the addresses) are left out. *)
From Verif Require Import PyBase PyDict HeapModel GraphModel.

(** big/heap.py:60-62 Heap.__repr__: len(self._queue) and self._queue[0], which raises IndexError if the queue is empty *)
Definition heap_repr {A} (h : heap A) : result (nat * A) :=
  match h_queue h with [] => Err IndexError | x :: _ => Ok (length (h_queue h), x) end.

(** big/graph.py:124-125 View.__repr__: ready, len(yielded), len(done), bool(conflicts) *)
Record view_text := mkVT { t_ready : list nat; t_yielded : nat; t_done : nat; t_conflicts : bool }.
(** close() deletes the attributes (graph.py:158-163): AttributeError *)
Definition view_repr (v : view) : result view_text :=
  match v_graph v with
  | None => Err AttributeError
  | Some _ => Ok (mkVT (v_ready v) (length (v_yielded v)) (length (v_done v)) (negb (length (v_conf v) =? 0)))
  end.
(** big/graph.py:440-441 TopologicalSorter.__repr__ *)
Definition graph_repr (g : graph) : nat := length (g_nodes g).

(** the calls of print *)
Inductive line :=
| LView (t : view_text) | LReady (l : list nat) | LYielded (l : list nat) | LDone (l : list nat) | LConflicts (l : list nat)
| LGraph (nodes : nat) | LCount (nodes : nat) | LNode (n : nat) (predecessors : Z) (successors : list nat) | LBlank.
(** big/graph.py:52-62 sorted(); the nodes here are numbers, which can be compared.  Two items (node, [count, successors]) of a dict
    are ordered by the node, since no node is there twice. *)
Definition sorted_nodes (l : list nat) : list nat := sort Nat.ltb l.
Definition sorted_items (N : nodes_t) : nodes_t := sort (fun a b => Nat.ltb (fst a) (fst b)) N.
(** big/graph.py:671-681 TopologicalSorter.print *)
Definition graph_print (g : graph) : list line :=
  LGraph (graph_repr g) :: LCount (length (g_nodes g)) :: map (fun '(n, (c, s)) => LNode n c s) (sorted_items (g_nodes g)).
(** big/graph.py:356-370 View.print; print(self) is the first to raise on a closed view (it is given self, and calls str(self)) *)
Definition view_print (w : world) (vi : nat) : list line * result unit :=
  match nth_error (w_views w) vi with
  | None => ([], Err no_object)
  | Some v =>
      match view_repr v with
      | Err e => ([], Err e)
      | Ok t =>
          let own := [LView t; LReady (sorted_nodes (v_ready v)); LYielded (sorted_nodes (v_yielded v)); LDone (sorted_nodes (v_done v));
                      LConflicts (sorted_nodes (dkeys (v_conf v)))] in
          match match v_graph v with Some gi => nth_error (w_graphs w) gi | None => None end with
          | Some g => (own ++ graph_print g ++ [LBlank], Ok tt)
          | None => (own, Err no_object)
          end
      end
  end.
