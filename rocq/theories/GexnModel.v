(** Model of big/graph.py: what TopologicalSorter and View do when an argument is not hashable (a list, say).
    "node in d" hashes the node first; for an unhashable one it raises TypeError. *)
From Verif Require Import PyBase PyDict.
From Verif Require Export GraphModel.

Inductive arg := Node (n : nat) | Unhashable.
(** the nodes before the first unhashable argument, and whether there is one *)
Fixpoint hashed (l : list arg) : list nat * bool :=
  match l with [] => ([], false) | Unhashable :: _ => ([], true) | Node n :: l => let '(ns, bad) := hashed l in (n :: ns, bad) end.
(** big/graph.py:473-489: add() up to the dependency that raises.  self.nodes, the successors of the dependencies and self.dirty are already changed;
    the count of predecessors of node (line 491) and the views (493-499) are not. *)
Definition add_fails (w : world) (gi : nat) (g : graph) (node : nat) (deps : list nat) : world :=
  let N := nodes_ensure (g_nodes g) node in
  let a := fold_left (add_dep node) deps (mkAdd N (g_dirty g) (pc_of N node) (if dmem node (g_nodes g) then [] else [node]) []) in
  mkW (upd (w_graphs w) gi (set_dirty (set_nodes g (a_nodes a)) (a_dirty a))) (w_views w).

(** the calls with arguments that may be unhashable; the others *)
Inductive xop := XAdd (g : nat) (n : arg) (deps : list arg) | XRemove (g : nat) (n : arg) | XDone (v : nat) (ns : list arg) | XOther (o : op).
Definition xstep (ord : list nat -> list nat) (w : world) (o : xop) : world * result value :=
  match o with
  | XAdd gi Unhashable _ => with_graph w gi (fun _ => (w, Err TypeError))                       (* line 473 *)
  | XAdd gi (Node n) deps =>
      match hashed deps with
      | (ds, true) => with_graph w gi (fun g => (add_fails w gi g n ds, Err TypeError))         (* line 481 *)
      | (ds, false) => step ord w (OAdd gi n ds)
      end
  | XRemove gi Unhashable => with_graph w gi (fun _ => (w, Err TypeError))                      (* line 518 *)
  | XRemove gi (Node n) => step ord w (ORemove gi n)
  | XDone vi ns =>
      match hashed ns with
      | (ms, true) => with_open w vi (fun v gi g => no_conflict w v                             (* line 213 *)
          (let '(v', r) := v_done_loop (g_nodes g) v ms in (put_view w vi v', match r with Ok _ => Err TypeError | Err e => Err e end)))
      | (ms, false) => step ord w (ODone vi ms)
      end
  | XOther o => step ord w o
  end.
Fixpoint xresults (l : list xop) (w : world) : list (result value) :=
  match l with [] => [] | o :: t => let '(w', r) := xstep (fun l => l) w o in r :: xresults t w' end.
