(** Specification for bound inner classes that are read in several threads. *)
From Verif Require Export BthrModel.

(** no thread is in the middle of reading an attribute of o *)
Definition nobody_reads (s : system) (o : oid) : Prop := forall t r, s_reading s t = Some r -> r_outer r <> o.
(** Two threads never read attributes of the object o at the same time *)
Fixpoint one_reader (type_attr : oid -> str -> option value) (o : oid) (l : list action) (s : system) : Prop :=
  match l with
  | [] => True
  | a :: l => (forall t n, a = Start t o n -> s_reading s t = None -> nobody_reads s o) /\ one_reader type_attr o l (fst (act type_attr a s))
  end.
(** how often thread t goes on *)
Definition is_go (t : tid) (a : action) : bool := match a with Go t' => t' =? t | _ => false end.
Definition goes (t : tid) (l : list action) : nat := length (filter (is_go t) l).
