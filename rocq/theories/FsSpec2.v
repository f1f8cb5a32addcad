(** Processes that are killed in the middle of a function. *)
From Verif Require Export FsSpec.

(** the world that is left if the process is killed after n system calls of f (or after f has ended) *)
Fixpoint killed (n : nat) (f : prog) (w : world) : world :=
  match n, f with S n, Call c k => let (a, w') := do c w in killed n (k a) w' | _, _ => w end.
(** the same files at another time *)
Definition at_time (t : Z) (w : world) : world := World (files w) t (cwd w).
(** any number of attempts, each killed somewhere and each made at some time *)
Fixpoint attempts (l : list (nat * Z)) (f : prog) (w : world) : world :=
  match l with [] => w | (n, t) :: l => attempts l f (killed n f (at_time t w)) end.
