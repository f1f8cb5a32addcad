(** Directories, files, and functions that run while other processes do something else. *)
From Verif Require Export FsModel.

Definition is_dir (w : world) (p : path) : Prop := exists t, files w p = Some (Dir t).
Definition is_file (w : world) (p : path) : Prop := exists d t, files w p = Some (File d t).
(** the root is a directory, and so is what holds anything *)
Definition well_formed (w : world) : Prop := is_dir w [] /\ forall n p, files w (n :: p) <> None -> is_dir w p.
(** q is p or a directory p is in; strictly: not p itself *)
Definition above (q p : path) : Prop := exists x, p = x ++ q.
Definition strictly_above (q p : path) : Prop := exists n x, p = n :: x ++ q.

(** A run among other processes, which may do anything at all between two calls: the result, and for each
    call of its own the world just before it and just after it. *)
Inductive among_others : prog -> list (world * world) -> option oserror -> Prop :=
| OReturn : among_others Return [] None
| ORaise e : among_others (Raise e) [] (Some e)
| OCall c k w1 a w2 tr o : do c w1 = (a, w2) -> among_others (k a) tr o -> among_others (Call c k) ((w1, w2) :: tr) o.

(** Several functions at once: the schedule says whose turn it is. *)
Fixpoint turn (i : nat) (threads : list prog) (w : world) : list prog * world :=
  match threads with
  | [] => ([], w)
  | f :: threads =>
      match i with
      | O => match f with Call c k => let (a, w) := do c w in (k a :: threads, w) | _ => (f :: threads, w) end
      | S i => let (threads, w) := turn i threads w in (f :: threads, w)
      end
  end.
Fixpoint interleave (schedule : list nat) (threads : list prog) (w : world) : list prog * world :=
  match schedule with [] => (threads, w) | i :: schedule => let (threads, w) := turn i threads w in interleave schedule threads w end.
