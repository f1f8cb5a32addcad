(** Functions that run while other processes do what they are allowed to do, and nothing else. *)
From Verif Require Export FsSpec.

(** [allowed]: from one world to the next by the doings of others.  Each of the worlds just before a call of the function (see [among_others])
    is what others have made of the world after its previous call, or of the first world. *)
Fixpoint others_only (allowed : world -> world -> Prop) (w : world) (tr : list (world * world)) : Prop :=
  match tr with [] => True | (w1, w2) :: tr => allowed w w1 /\ others_only allowed w2 tr end.
(** the world after the last call *)
Fixpoint last_world (w : world) (tr : list (world * world)) : world := match tr with [] => w | (_, w2) :: tr => last_world w2 tr end.

(** Others remove no directory and no file at path or above it, and make no file there.  (They may make directories there, and do anything elsewhere.) *)
Definition leave_directories (p : path) (w w' : world) : Prop :=
  well_formed w' /\ forall q, above q p -> (is_dir w q -> is_dir w' q) /\ (is_file w q -> is_file w' q) /\ (is_file w' q -> is_file w q).
(** Others do not remove the file at path *)
Definition leave_file (p : path) (w w' : world) : Prop := well_formed w' /\ (is_file w p -> is_file w' p).
(** Others do not remove what is at path, nor the directory it would be in, and make nothing at path.  (They may write to a file at path.) *)
Definition leave_alone (p : path) (w w' : world) : Prop :=
  well_formed w' /\ (is_dir w p <-> is_dir w' p) /\ (is_file w p <-> is_file w' p) /\ (is_dir w (tl p) -> is_dir w' (tl p)).
