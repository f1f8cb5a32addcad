(** What the TopologicalSorter properties mean, in terms of the history of calls and
    their results (newest first).  Independent of how the code keeps its books. *)
From Verif Require Import PyBase PyDict GraphModel.

Definition history := list (op * result value).

(** [run h w]: the calls of [h], made one after the other starting with no objects at
    all, returned what [h] says and left the world [w].  Each call may see its own
    iteration order of Python sets. *)
Definition set_order (ord : list nat -> list nat) : Prop := forall l, Permutation (ord l) l.
Inductive run : history -> world -> Prop :=
| run_nil : run [] (mkW [] [])
| run_cons : forall h w ord o w' r,
    run h w -> set_order ord -> step ord w o = (w', r) -> run ((o, r) :: h) w'.

(** the nodes and dependencies of graph [g] according to the history *)
Fixpoint node_in (h : history) (g n : nat) : Prop :=
  match h with
  | [] => False
  | (OAdd g' m ds, _) :: t => (g' = g /\ (n = m \/ In n ds)) \/ node_in t g n
  | (ORemove g' m, _) :: t => node_in t g n /\ ~ (g' = g /\ n = m)
  | _ :: t => node_in t g n
  end.
(** [edge_in h g d n]: in graph [g], [n] depends on [d] *)
Fixpoint edge_in (h : history) (g d n : nat) : Prop :=
  match h with
  | [] => False
  | (OAdd g' m ds, _) :: t => (g' = g /\ n = m /\ In d ds) \/ edge_in t g d n
  | (ORemove g' m, _) :: t => edge_in t g d n /\ ~ (g' = g /\ (d = m \/ n = m))
  | _ :: t => edge_in t g d n
  end.

(** [graph_known h g] / [view_known h v]: a call of [h] returned this object *)
Definition graph_known (h : history) (g : nat) : Prop :=
  exists o d, In (o, Ok (VGraph g d)) h.
Definition view_known (h : history) (v : nat) : Prop :=
  (exists o g, In (o, Ok (VGraph g v)) h) \/ (exists o, In (o, Ok (VView v)) h).

(** [view_on h v g]: [v] is an open view on [g] (the default view, or one returned by
    g.view() or by copying such a view, and not closed since) *)
Fixpoint view_on (h : history) (v g : nat) : Prop :=
  match h with
  | [] => False
  | (_, Ok (VGraph g' d)) :: t => (v = d /\ g = g') \/ (v <> d /\ view_on t v g)
  | (OView g', Ok (VView u)) :: t => (v = u /\ g = g') \/ (v <> u /\ view_on t v g)
  | (OViewCopy v0, Ok (VView u)) :: t => (v = u /\ view_on t v0 g) \/ (v <> u /\ view_on t v g)
  | (OClose u, Ok _) :: t => v <> u /\ view_on t v g
  | _ :: t => view_on t v g
  end.

(** A fact about (view, node) that some calls make true, and that is forgotten when the
    view is reset or newly created, and when the node is removed from its graph; a copied
    view inherits the facts of the view it was copied from. *)
Definition creates (e : op * result value) (v : nat) : Prop :=
  match e with
  | (_, Ok (VGraph _ d)) => v = d
  | (_, Ok (VView u)) => v = u
  | _ => False
  end.

(** [handed h v n]: view [v] has handed out [n] from ready() *)
Fixpoint handed (h : history) (v n : nat) : Prop :=
  match h with
  | [] => False
  | (OReady u, Ok (VNodes l)) :: t => (u = v /\ In n l) \/ handed t v n
  | (OReset u, Ok _) :: t => u <> v /\ handed t v n
  | (OViewCopy u, Ok (VView v')) :: t => (v = v' /\ handed t u n) \/ (v <> v' /\ handed t v n)
  | (ORemove g m, Ok _) :: t => handed t v n /\ ~ (view_on t v g /\ n = m)
  | e :: t => handed t v n /\ ~ creates e v
  end.
(** [is_done h v n]: [n] has been passed to done() in view [v] *)
Fixpoint is_done (h : history) (v n : nat) : Prop :=
  match h with
  | [] => False
  | (ODone u l, Ok _) :: t => (u = v /\ In n l) \/ is_done t v n
  | (OReset u, Ok _) :: t => u <> v /\ is_done t v n
  | (OViewCopy u, Ok (VView v')) :: t => (v = v' /\ is_done t u n) \/ (v <> v' /\ is_done t v n)
  | (ORemove g m, Ok _) :: t => is_done t v n /\ ~ (view_on t v g /\ n = m)
  | e :: t => is_done t v n /\ ~ creates e v
  end.
(** [conflict h v d n]: the dependency of [n] on [d] was added when [v] had already handed
    out [n] while [d] was not done, and neither was removed since *)
Fixpoint conflict (h : history) (v d n : nat) : Prop :=
  match h with
  | [] => False
  | (OAdd g m ds, _) :: t =>
      (view_on t v g /\ n = m /\ In d ds /\ ~ edge_in t g d n /\
       handed t v n /\ ~ is_done t v d) \/ conflict t v d n
  | (OReset u, Ok _) :: t => u <> v /\ conflict t v d n
  | (OViewCopy u, Ok (VView v')) :: t => (v = v' /\ conflict t u d n) \/ (v <> v' /\ conflict t v d n)
  | (ORemove g m, Ok _) :: t => conflict t v d n /\ ~ (view_on t v g /\ (d = m \/ n = m))
  | e :: t => conflict t v d n /\ ~ creates e v
  end.
(** [late h v n]: a dependency of [n] on some node already done in [v] was added, when [n]
    itself was not done in [v] (property C21), and [n] was not removed since *)
Fixpoint late (h : history) (v n : nat) : Prop :=
  match h with
  | [] => False
  | (OAdd g m ds, _) :: t =>
      (view_on t v g /\ n = m /\ ~ is_done t v n /\
       exists d, In d ds /\ ~ edge_in t g d n /\ is_done t v d) \/ late t v n
  | (OReset u, Ok _) :: t => u <> v /\ late t v n
  | (OViewCopy u, Ok (VView v')) :: t => (v = v' /\ late t u n) \/ (v <> v' /\ late t v n)
  | (ORemove g m, Ok _) :: t => late t v n /\ ~ (view_on t v g /\ n = m)
  | e :: t => late t v n /\ ~ creates e v
  end.

(** what the properties assume of the caller: calls name objects that exist; done() is
    given nodes that are handed out and not done, no node twice; no graph is copied
    (copies are treated separately, C20) *)
Definition good_call (h : history) (o : op) : Prop :=
  match o with
  | ONewGraph => True
  | OAdd g _ _ | ORemove g _ | OView g | OLen g | OCycle g | OCheck g => graph_known h g
  | OCopy _ => False
  | OReady v | OBool v | OReset v | OClose v | OViewCopy v => view_known h v
  | ODone v ns => view_known h v /\ NoDup ns /\
                  forall n, In n ns -> handed h v n /\ ~ is_done h v n
  end.
Fixpoint good (h : history) : Prop :=
  match h with [] => True | (o, _) :: t => good_call t o /\ good t end.

(** a directed cycle x1 -> x2 -> ... -> xk -> x1 of dependencies *)
Fixpoint chain (e : nat -> nat -> Prop) (l : list nat) : Prop :=
  match l with
  | x :: (y :: _) as t => e x y /\ chain e t
  | _ => True
  end.
Definition is_cycle (e : nat -> nat -> Prop) (l : list nat) : Prop :=
  match l with
  | [] => False
  | x :: _ => NoDup l /\ chain e l /\ e (last l x) x
  end.
Inductive reaches (e : nat -> nat -> Prop) : nat -> nat -> Prop :=
| reaches1 : forall a b, e a b -> reaches e a b
| reachesS : forall a b c, e a b -> reaches e b c -> reaches e a c.
Definition acyclic (e : nat -> nat -> Prop) : Prop := forall n, ~ reaches e n n.

(** [order] lists every node of the graph exactly once, each after all it depends on *)
Definition topological (node : nat -> Prop) (edge : nat -> nat -> Prop) (order : list nat) : Prop :=
  NoDup order /\ (forall n, In n order <-> node n) /\
  (forall d n, edge d n -> exists a b c, order = a ++ d :: b ++ n :: c).

(** calls naming the view [v] *)
Definition about_view (v : nat) (o : op) : Prop :=
  match o with
  | OReady u | ODone u _ | OBool u | OReset u | OClose u | OViewCopy u => u = v
  | _ => False
  end.
(** [play l h w]: make the calls [l], one after the other; the history grows *)
Fixpoint play (l : list ((list nat -> list nat) * op)) (h : history) (w : world) : history * world :=
  match l with
  | [] => (h, w)
  | (ord, o) :: t => let '(w', r) := step ord w o in play t ((o, r) :: h) w'
  end.
(** what those calls return *)
Fixpoint results (l : list ((list nat -> list nat) * op)) (w : world) : list (result value) :=
  match l with
  | [] => []
  | (ord, o) :: t => let '(w', r) := step ord w o in r :: results t w'
  end.

(** the four calls a view offers, independent of the view they are made on *)
Inductive vcall := CReady | CDone (ns : list nat) | CBool | CReset.
Definition on_view (v : nat) (c : vcall) : op :=
  match c with CReady => OReady v | CDone ns => ODone v ns | CBool => OBool v | CReset => OReset v end.
