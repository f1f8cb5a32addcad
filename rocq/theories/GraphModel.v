(** Model of big/graph.py: TopologicalSorter and TopologicalSorter.View.
    Nodes are hashable Python objects used only through ==/hash; they are named by
    natural numbers.  Graph and View objects live in a world and are named by their
    index, so that aliasing between a graph, its views and its copies is visible. *)
From Verif Require Import PyBase PyDict.

(** big/graph.py:80-122 the attributes of a View; [v_graph = None] after close() *)
Record view := mkV {
  v_graph : option nat;
  v_pred : dict Z;               (* _predecessors *)
  v_ready : list nat;            (* _ready *)
  v_yielded : list nat;          (* _yielded *)
  v_done : list nat;             (* _done *)
  v_conf : dict (list nat);      (* _conflicts *)
  v_rconf : dict (list nat)      (* _reverse_conflicts *)
}.
(** big/graph.py:414-441 the attributes of a TopologicalSorter; [nodes] maps a node to
    [count of predecessors, ordered successors] *)
Definition nodes_t := dict (Z * list nat).
Record graph := mkG {
  g_nodes : nodes_t;
  g_dirty : bool;
  g_views : list nat;
  g_default : nat;
  g_stock : nat
}.
Record world := mkW { w_graphs : list graph; w_views : list view }.

Definition set_graph v x := mkV x (v_pred v) (v_ready v) (v_yielded v) (v_done v) (v_conf v) (v_rconf v).
Definition set_pred v x := mkV (v_graph v) x (v_ready v) (v_yielded v) (v_done v) (v_conf v) (v_rconf v).
Definition set_ready v x := mkV (v_graph v) (v_pred v) x (v_yielded v) (v_done v) (v_conf v) (v_rconf v).
Definition set_yielded v x := mkV (v_graph v) (v_pred v) (v_ready v) x (v_done v) (v_conf v) (v_rconf v).
Definition set_done v x := mkV (v_graph v) (v_pred v) (v_ready v) (v_yielded v) x (v_conf v) (v_rconf v).
Definition set_confs v x y := mkV (v_graph v) (v_pred v) (v_ready v) (v_yielded v) (v_done v) x y.
Definition set_nodes g x := mkG x (g_dirty g) (g_views g) (g_default g) (g_stock g).
Definition set_dirty g x := mkG (g_nodes g) x (g_views g) (g_default g) (g_stock g).
Definition set_views g x := mkG (g_nodes g) (g_dirty g) x (g_default g) (g_stock g).

(** a "for x in l" loop over a body that may raise, keeping the mutations made so far *)
Fixpoint for_each {S A} (f : S -> A -> S * result unit) (s : S) (l : list A) : S * result unit :=
  match l with
  | [] => (s, Ok tt)
  | x :: t => match f s x with
              | (s', Ok _) => for_each f s' t
              | (s', Err e) => (s', Err e)
              end
  end.

(** big/graph.py:238-251 View._add_nodes *)
Definition v_add_nodes (v : view) (ns : list nat) : view :=
  fold_left (fun v n => set_ready (set_pred v (dset (v_pred v) n 0%Z)) (v_ready v ++ [n])) ns v.

(** d[k].add(x) on a defaultdict(set) *)
Definition dd_add (d : dict (list nat)) (k x : nat) : dict (list nat) :=
  dset d k (sadd x (match dget d k with Some s => s | None => [] end)).

(** big/graph.py:253-303 View._add_successor *)
Definition v_add_successor (v : view) (node succ : nat) : view * result unit :=
  let conflict_1 := negb (smem node (v_done v)) in
  let conflict_2 := smem succ (v_yielded v) || smem succ (v_done v) in
  let v := if conflict_1 && conflict_2
           then set_confs v (dd_add (v_conf v) node succ) (dd_add (v_rconf v) succ node)
           else v in
  if negb (smem succ (v_done v)) then
    match dget (v_pred v) succ with
    | None => (v, Err KeyError)
    | Some k =>
        let v := set_pred v (dset (v_pred v) succ (k + 1)%Z) in
        if (k + 1 =? 1)%Z then (set_ready v (lremove succ (v_ready v)), Ok tt)
        else (v, Ok tt)
    end
  else (v, Ok tt).

(** big/graph.py:337-355 View._mark_node_done *)
Definition v_mark_one (v : view) (s : nat) : view * result unit :=
  if smem s (v_yielded v) || smem s (v_done v) then (v, Ok tt)
  else match dget (v_pred v) s with
       | None => (v, Err KeyError)
       | Some k =>
           let v := set_pred v (dset (v_pred v) s (k - 1)%Z) in
           if (k - 1 =? 0)%Z then (set_ready v (v_ready v ++ [s]), Ok tt) else (v, Ok tt)
       end.
Definition v_mark_done (v : view) (succs : list nat) : view * result unit :=
  for_each v_mark_one v succs.

(** big/graph.py:312-323 one pass of the conflict clean-up:
    values = this.get(node, ()); if values: del this[node];
    for v in values: other[v].discard(node); if not other[v]: del other[v].
    (other[v] on the defaultdict creates an empty set when v is missing, which the
    following "if not other[v]: del" removes again.) *)
Definition clear_pass (this other : dict (list nat)) (node : nat)
  : dict (list nat) * dict (list nat) :=
  match dget this node with
  | None | Some [] => (this, other)
  | Some values =>
      (ddel this node,
       fold_left (fun other v =>
         let s := sdiscard node (match dget other v with Some s => s | None => [] end) in
         match s with [] => ddel other v | _ => dset other v s end) values other)
  end.
(** big/graph.py:310-323 *)
Definition v_clear_conflicts (v : view) (node : nat) : view :=
  if dmem node (v_conf v) || dmem node (v_rconf v) then
    let '(c, r) := clear_pass (v_conf v) (v_rconf v) node in
    let '(r, c) := clear_pass r c node in
    set_confs v c r
  else v.

(** big/graph.py:304-335 View._remove_node *)
Definition v_remove_node (v : view) (node : nat) (succs : list nat) : view * result unit :=
  let v := v_clear_conflicts v node in
  if smem node (v_done v) then (set_done v (sdiscard node (v_done v)), Ok tt)
  else
    let v := if smem node (v_ready v) then set_ready v (lremove node (v_ready v)) else v in
    let v := set_yielded v (sdiscard node (v_yielded v)) in
    if dmem node (v_pred v) then
      v_mark_done (set_pred v (ddel (v_pred v) node)) succs
    else (v, Err KeyError).

(** big/graph.py:471-495 the graph part of add() (up to "pc_s[0] = ..."); the loop over
    dependencies carries (nodes, dirty, predecessors_count, new_nodes, new_successors) *)
Record add_st := mkAdd { a_nodes : nodes_t; a_dirty : bool; a_pc : Z;
                         a_new : list nat; a_succ : list nat }.
Definition nodes_ensure (N : nodes_t) (n : nat) : nodes_t :=
  if dmem n N then N else dset N n (0%Z, []).
Definition pc_of (N : nodes_t) (n : nat) : Z :=
  match dget N n with Some (p, _) => p | None => 0%Z end.
Definition succs_of (N : nodes_t) (n : nat) : list nat :=
  match dget N n with Some (_, s) => s | None => [] end.
Definition add_dep (node : nat) (a : add_st) (d : nat) : add_st :=
  let new := if dmem d (a_nodes a) then a_new a else a_new a ++ [d] in
  let N := nodes_ensure (a_nodes a) d in
  if smem node (succs_of N d) then mkAdd N (a_dirty a) (a_pc a) new (a_succ a)
  else mkAdd (dset N d (pc_of N d, succs_of N d ++ [node])) true (a_pc a + 1)%Z new (a_succ a ++ [d]).
Definition add_nodes_part (N : nodes_t) (dirty : bool) (node : nat) (deps : list nat) : add_st :=
  let new := if dmem node N then [] else [node] in
  let N := nodes_ensure N node in
  let a := fold_left (add_dep node) deps (mkAdd N dirty (pc_of N node) new []) in
  mkAdd (dset (a_nodes a) node (a_pc a, succs_of (a_nodes a) node))
        (a_dirty a) (a_pc a) (a_new a) (a_succ a).

(** "for v in self.views: f(v)" over the view store *)
Definition notify (f : view -> view * result unit) (store : list view) (vs : list nat)
  : list view * result unit :=
  for_each (fun store i =>
              match nth_error store i with
              | None => (store, Ok tt)
              | Some v => let '(v', r) := f v in (upd store i v', r)
              end) store vs.

(** big/graph.py:449-503 TopologicalSorter.add *)
Definition g_add (w : world) (gi : nat) (g : graph) (node : nat) (deps : list nat)
  : world * result unit :=
  let a := add_nodes_part (g_nodes g) (g_dirty g) node deps in
  let g' := set_dirty (set_nodes g (a_nodes a)) (a_dirty a) in
  let '(vs, r) :=
    match a_new a with
    | [] => (w_views w, Ok tt)
    | ns => notify (fun v => (v_add_nodes v ns, Ok tt)) (w_views w) (g_views g)
    end in
  let '(vs, r) :=
    match r with
    | Err e => (vs, Err e)
    | Ok _ => notify (fun v => for_each (fun v s => v_add_successor v s node) v (a_succ a))
                     vs (g_views g)
    end in
  (mkW (upd (w_graphs w) gi g') vs, r).

(** big/graph.py:523-535 the scan for predecessors, with its early exit *)
Fixpoint find_preds (node : nat) (count : Z) (items : nodes_t) : list nat :=
  match items with
  | [] => []
  | (n, (_, s)) :: t =>
      if smem node s then
        n :: (if (count - 1 =? 0)%Z then [] else find_preds node (count - 1)%Z t)
      else find_preds node count t
  end.
(** big/graph.py:540-542: for n in predecessors: del self.nodes[n][1][node] *)
Definition del_edges (node : nat) (preds : list nat) (N : nodes_t) : nodes_t :=
  fold_left (fun N n => dset N n (pc_of N n, lremove node (succs_of N n))) preds N.
(** big/graph.py:544-546: for n in successors: self.nodes[n][0] -= 1 *)
Definition dec_counts (succs : list nat) (N : nodes_t) : nodes_t :=
  fold_left (fun N n => dset N n ((pc_of N n - 1)%Z, succs_of N n)) succs N.
(** big/graph.py:520-548 the graph part of remove(), returning the new nodes and the
    successors passed to the views.  [successors] is the dict object stored in
    self.nodes[node], so the "del s[node]" of a self-loop is visible in it: it is read
    after the deletion. *)
Definition remove_nodes_part (N : nodes_t) (node : nat) : nodes_t * list nat :=
  let count := pc_of N node in
  let preds := if (count =? 0)%Z then [] else find_preds node count N in
  let N := del_edges node preds N in
  let succs := succs_of N node in
  (ddel (dec_counts succs N) node, succs).

(** big/graph.py:505-556 TopologicalSorter.remove *)
Definition g_remove (w : world) (gi : nat) (g : graph) (node : nat) : world * result unit :=
  if negb (dmem node (g_nodes g)) then (w, Err ValueError)
  else
    let '(N, succs) := remove_nodes_part (g_nodes g) node in
    let '(vs, r) := notify (fun v => v_remove_node v node succs) (w_views w) (g_views g) in
    (mkW (upd (w_graphs w) gi (set_nodes g N)) vs, r).

(** big/graph.py:586-600 the counting phase of cycle().  [ord] is the iteration order
    Python happens to give a set; [rounds] bounds the while loop (the number of nodes
    suffices, proved). *)
Definition count_succ (st : dict Z * list nat) (s : nat) : dict Z * list nat :=
  let '(counts, ready2) := st in
  let k := (match dget counts s with Some k => k | None => 0 end - 1)%Z in
  (dset counts s k, if (k =? 0)%Z then sadd s ready2 else ready2).
Fixpoint kahn (ord : list nat -> list nat) (N : nodes_t) (rounds : nat)
         (counts : dict Z) (done ready : list nat) : list nat :=
  match rounds, ready with
  | _, [] => done
  | O, _ => done
  | S r, _ =>
      let done := sunion done ready in
      let '(counts, ready2) :=
        fold_left (fun st n => fold_left count_succ (succs_of N n) st) (ord ready) (counts, []) in
      kahn ord N r counts done ready2
  end.
Definition kahn_done (ord : list nat -> list nat) (N : nodes_t) : list nat :=
  let counts := map (fun '(n, (p, _)) => (n, p)) N in
  let ready := map fst (filter (fun '(_, p) => (p =? 0)%Z) counts) in
  kahn ord N (S (length N)) counts [] ready.

(** big/graph.py:618-647 the depth-first search of cycle(): the stack of iterators
    (innermost first; each iterator is the list of what it has still to produce) and
    the list [cycle] (innermost last); [seen] always holds the elements of [cycle]. *)
Inductive dfs_out := Found (c : list nat) | DErr (e : exn).
Definition dfs_step (N : nodes_t) (done : list nat) (its : list (list nat)) (path : list nat)
  : dfs_out + (list (list nat) * list nat) :=
  match its with
  | [] => inl (DErr RuntimeError)          (* the while loop ends: falls off, returns None *)
  | [] :: rest =>
      match path with
      | [] => inl (DErr IndexError)        (* cycle.pop() on an empty list *)
      | _ => inr (rest, removelast path)
      end
  | (n :: it) :: rest =>
      if smem n done then inl (DErr AssertionError)
      else if smem n path then
        inl (Found ((fix from (l : list nat) := match l with
                     | [] => [] | x :: t => if (n =? x)%nat then l else from t end) path))
      else inr (succs_of N n :: it :: rest, path ++ [n])
  end.
Fixpoint dfs (N : nodes_t) (done : list nat) (fuel : nat) (its : list (list nat)) (path : list nat)
  : dfs_out :=
  match fuel with
  | O => DErr RecursionError               (* out of fuel: proved impossible *)
  | S f => match dfs_step N done its path with
           | inl o => o
           | inr (its', path') => dfs N done f its' path'
           end
  end.
(** enough steps for a search over [n] nodes with [k] nodes not on the path *)
Fixpoint dfs_fuel (n k : nat) : nat :=
  match k with O => S n | S k' => S (n * S (dfs_fuel n k')) end.

(** big/graph.py:575-647 TopologicalSorter.cycle; returns the new dirty bit *)
Definition g_cycle (ord : list nat -> list nat) (N : nodes_t) (dirty : bool)
  : bool * result (option (list nat)) :=
  if negb dirty then (dirty, Ok None)
  else
    let done := kahn_done ord N in
    if (length done =? length N)%nat then (false, Ok None)
    else match dfs N done (dfs_fuel (length N) (S (length N)))
                   [ord (sdiff (dkeys N) done)] [] with
         | Found c => (true, Ok (Some c))
         | DErr e => (false, Err e)
         end.
(** big/graph.py:649-658 check_for_cycles *)
Definition g_check (ord : list nat -> list nat) (N : nodes_t) (dirty : bool) : bool * result unit :=
  if dirty then
    match g_cycle ord N dirty with
    | (d, Ok (Some (_ :: _))) => (d, Err CycleError)
    | (d, Ok _) => (d, Ok tt)
    | (d, Err e) => (d, Err e)
    end
  else (dirty, Ok tt).

(** big/graph.py:80-101 View.__init__: a fresh view, and a copy of [o] *)
Definition v_fresh (gi : nat) : view := mkV (Some gi) [] [] [] [] [] [].

(** the public calls.  [ONewGraph] is TopologicalSorter() (the mapping form only calls
    add in a loop, 439-441); g.ready/done/reset/bool are the same calls on the default
    view (373-412), whose id ONewGraph/OCopy returns; [OViewCopy] is View.copy. *)
Inductive op :=
| ONewGraph | OAdd (g n : nat) (deps : list nat) | ORemove (g n : nat) | OCopy (g : nat)
| OView (g : nat) | OLen (g : nat) | OCycle (g : nat) | OCheck (g : nat)
| OReady (v : nat) | ODone (v : nat) (ns : list nat) | OBool (v : nat)
| OReset (v : nat) | OClose (v : nat) | OViewCopy (v : nat).
Inductive value :=
| VUnit | VBool (b : bool) | VInt (z : Z) | VNodes (l : list nat)
| VCycle (c : option (list nat)) | VGraph (g default : nat) | VView (v : nat).

(** a name that denotes no object; cannot be written in Python *)
Definition no_object : exn := OtherError 0.

(** big/graph.py:414-441 TopologicalSorter.__init__ *)
Definition new_graph (w : world) : world :=
  let gi := length (w_graphs w) in
  let d := length (w_views w) in
  mkW (w_graphs w ++ [mkG [] false [d; S d] d (S d)]) (w_views w ++ [v_fresh gi; v_fresh gi]).

(** big/graph.py:558-573 TopologicalSorter.copy.  The copies of the default and stock
    views are made by View.copy, so they register themselves in the ORIGINAL graph's
    [views]; only then is their [graph] attribute redirected to the clone.  The clone's
    own [views] list holds the two fresh views made by cls().  Copying a closed default
    view raises ValueError (nothing but garbage has been created by then). *)
Definition g_copy (w : world) (gi : nat) (g : graph) : world * result value :=
  let w1 := new_graph w in
  let ci := length (w_graphs w) in
  let dv := length (w_views w1) in
  match nth_error (w_views w) (g_default g), nth_error (w_views w) (g_stock g) with
  | Some d, Some s =>
      match v_graph d with None => (w, Err ValueError) | Some _ =>
      (mkW (upd (upd (w_graphs w1) gi (set_views g (g_views g ++ [dv; S dv])))
                ci (mkG (g_nodes g) false [length (w_views w); S (length (w_views w))] dv (S dv)))
           (w_views w1 ++ [set_graph d (Some ci); set_graph s (Some ci)]),
       Ok (VGraph ci dv))
      end
  | _, _ => (w, Err no_object)
  end.

(** View.copy / TopologicalSorter.view: big/graph.py:80-99, 126-130, 443-447.  Copying
    a closed view passes graph=None to __init__, which raises ValueError. *)
Definition copy_view (w : world) (vi : nat) : world * result value :=
  match nth_error (w_views w) vi with
  | None => (w, Err no_object)
  | Some v =>
      match v_graph v with
      | None => (w, Err ValueError)
      | Some gi =>
          match nth_error (w_graphs w) gi with
          | None => (w, Err no_object)
          | Some g =>
              (mkW (upd (w_graphs w) gi (set_views g (g_views g ++ [length (w_views w)])))
                   (w_views w ++ [v]),
               Ok (VView (length (w_views w))))
          end
      end
  end.

(** big/graph.py:185-199 View.ready after the closed/conflict checks and the cycle check *)
Definition v_take_ready (v : view) : view * list nat :=
  (set_ready (set_yielded v (sunion (v_yielded v) (v_ready v))) [], v_ready v).

(** big/graph.py:212-223 View.done: the loop, then the set updates *)
Definition v_done_loop (N : nodes_t) (v : view) (ns : list nat) : view * result unit :=
  for_each (fun v n =>
    if negb (dmem n N) then (v, Err ValueError)
    else if negb (smem n (v_yielded v)) then (v, Err ValueError)
    else v_mark_done v (succs_of N n)) v ns.
Definition v_do_done (N : nodes_t) (v : view) (ns : list nat) : view * result unit :=
  match v_done_loop N v ns with
  | (v, Ok _) => (set_yielded (set_done v (sunion (v_done v) ns)) (sdiff (v_yielded v) ns), Ok tt)
  | (v, Err e) => (v, Err e)
  end.

(** big/graph.py:132-147 View.reset *)
Definition v_do_reset (v stock : view) : view :=
  mkV (v_graph v) (v_pred stock) (v_ready stock) [] [] [] [].
(** big/graph.py:149-163 View.close *)
Definition v_closed : view := mkV None [] [] [] [] [] [].

(** the prologue shared by __bool__/ready/done: closed -> ValueError, then
    conflicts -> RuntimeError (big/graph.py:165-170, 178-181, 190-193, 207-210) *)
Definition with_graph (w : world) (g : nat) (k : graph -> world * result value) :=
  match nth_error (w_graphs w) g with None => (w, Err no_object) | Some x => k x end.
Definition with_open (w : world) (v : nat) (k : view -> nat -> graph -> world * result value) :=
  match nth_error (w_views w) v with
  | None => (w, Err no_object)
  | Some x => match v_graph x with
              | None => (w, Err ValueError)
              | Some gi => with_graph w gi (fun g => k x gi g)
              end
  end.
Definition no_conflict (w : world) (v : view) (k : world * result value) : world * result value :=
  match v_conf v with [] => k | _ => (w, Err RuntimeError) end.

Definition put_view (w : world) (i : nat) (v : view) := mkW (w_graphs w) (upd (w_views w) i v).
Definition put_graph (w : world) (i : nat) (g : graph) := mkW (upd (w_graphs w) i g) (w_views w).

(** one call *)
Definition step (ord : list nat -> list nat) (w : world) (o : op) : world * result value :=
  match o with
  | ONewGraph => (new_graph w, Ok (VGraph (length (w_graphs w)) (length (w_views w))))
  | OAdd gi n ds => with_graph w gi (fun g =>
      let '(w', r) := g_add w gi g n ds in (w', rmap (fun _ => VUnit) r))
  | ORemove gi n => with_graph w gi (fun g =>
      let '(w', r) := g_remove w gi g n in (w', rmap (fun _ => VUnit) r))
  | OCopy gi => with_graph w gi (fun g => g_copy w gi g)
  | OView gi => with_graph w gi (fun g => copy_view w (g_stock g))
  | OLen gi => with_graph w gi (fun g => (w, Ok (VInt (Z.of_nat (length (g_nodes g))))))
  | OCycle gi => with_graph w gi (fun g =>
      let '(d, r) := g_cycle ord (g_nodes g) (g_dirty g) in
      (put_graph w gi (set_dirty g d), rmap VCycle r))
  | OCheck gi => with_graph w gi (fun g =>
      let '(d, r) := g_check ord (g_nodes g) (g_dirty g) in
      (put_graph w gi (set_dirty g d), rmap (fun _ => VUnit) r))
  | OReady vi => with_open w vi (fun v gi g => no_conflict w v
      (match g_check ord (g_nodes g) (g_dirty g) with
       | (d, Err e) => (put_graph w gi (set_dirty g d), Err e)
       | (d, Ok _) => let '(v', l) := v_take_ready v in
                      (put_view (put_graph w gi (set_dirty g d)) vi v', Ok (VNodes l))
       end))
  | ODone vi ns => with_open w vi (fun v gi g => no_conflict w v
      (let '(v', r) := v_do_done (g_nodes g) v ns in (put_view w vi v', rmap (fun _ => VUnit) r)))
  | OBool vi => with_open w vi (fun v gi g => no_conflict w v
      (w, Ok (VBool (length (v_done v) <? length (g_nodes g))%nat)))
  | OReset vi => with_open w vi (fun v gi g =>
      match nth_error (w_views w) (g_stock g) with
      | None => (w, Err no_object)
      | Some s => (put_view w vi (v_do_reset v s), Ok VUnit)
      end)
  | OClose vi => with_open w vi (fun v gi g =>
      if smem vi (g_views g)
      then (put_view (put_graph w gi (set_views g (lremove vi (g_views g)))) vi v_closed, Ok VUnit)
      else (w, Err ValueError))
  | OViewCopy vi => copy_view w vi
  end.

(** big/graph.py:660-669 static_order, run to the end by its consumer: the nodes yielded,
    in order.  [None]: still running after [fuel] rounds. *)
Fixpoint order_loop (ord : list nat -> list nat) (fuel : nat) (w : world) (v : nat)
         (out : list nat) : option (world * result (list nat)) :=
  match fuel with
  | O => None
  | S f =>
      match step ord w (OBool v) with
      | (w, Ok (VBool true)) =>
          match step ord w (OReady v) with
          | (w, Ok (VNodes l)) =>
              match step ord w (ODone v l) with
              | (w, Ok _) => order_loop ord f w v (out ++ l)
              | (w, Err e) => Some (w, Err e)
              end
          | (w, Ok _) => None
          | (w, Err e) => Some (w, Err e)
          end
      | (w, Ok _) => Some (w, Ok out)
      | (w, Err e) => Some (w, Err e)
      end
  end.
Definition static_order (ord : list nat -> list nat) (fuel : nat) (w : world) (g : nat)
  : option (world * result (list nat)) :=
  match step ord w (OView g) with
  | (w, Ok (VView v)) => order_loop ord fuel w v []
  | (w, Ok _) => None
  | (w, Err e) => Some (w, Err e)
  end.
