(** What graphs contain according to the history of calls, when graphs are copied and calls fail (GraphSpec.v leaves both out). *)
From Verif Require Import PyBase PyDict GraphModel GraphSpec.

(** The nodes of graph [g]: a new graph has none, a copy those the graph it was copied from had then; after that only add and
    remove on [g] itself matter. *)
Fixpoint has_node (h : history) (g n : nat) : Prop :=
  match h with
  | [] => False
  | (ONewGraph, Ok (VGraph c _)) :: t => g <> c /\ has_node t g n
  | (OCopy g0, Ok (VGraph c _)) :: t => (g = c /\ has_node t g0 n) \/ (g <> c /\ has_node t g n)
  | (OAdd g' m ds, _) :: t => (g' = g /\ (n = m \/ In n ds)) \/ has_node t g n
  | (ORemove g' m, _) :: t => has_node t g n /\ ~ (g' = g /\ n = m)
  | _ :: t => has_node t g n
  end.
(** [has_edge h g d n]: in graph [g], [n] depends on [d] *)
Fixpoint has_edge (h : history) (g d n : nat) : Prop :=
  match h with
  | [] => False
  | (ONewGraph, Ok (VGraph c _)) :: t => g <> c /\ has_edge t g d n
  | (OCopy g0, Ok (VGraph c _)) :: t => (g = c /\ has_edge t g0 d n) \/ (g <> c /\ has_edge t g d n)
  | (OAdd g' m ds, _) :: t => (g' = g /\ n = m /\ In d ds) \/ has_edge t g d n
  | (ORemove g' m, _) :: t => has_edge t g d n /\ ~ (g' = g /\ (d = m \/ n = m))
  | _ :: t => has_edge t g d n
  end.
(** [bare_copy h g]: [g] is a copy, and no new dependency was added to it since it was made *)
Fixpoint bare_copy (h : history) (g : nat) : Prop :=
  match h with
  | [] => False
  | (ONewGraph, Ok (VGraph c _)) :: t => g <> c /\ bare_copy t g
  | (OCopy g0, Ok (VGraph c _)) :: t => g = c \/ bare_copy t g
  | (OAdd g' m ds, _) :: t => bare_copy t g /\ ~ (g' = g /\ exists d, In d ds /\ ~ has_edge t g d m)
  | _ :: t => bare_copy t g
  end.
