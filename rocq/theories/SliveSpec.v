(** What the liveness properties of the Scheduler say: infinite executions of the threads of SchedModel.v. *)
From Verif Require Import PyBase SchedModel SchedSpec.

(** an infinite interleaving, and the history after its first n moves *)
Definition schedule := nat -> move.
Fixpoint state_at (c0 : Z) (sigma : schedule) (n : nat) : sstate :=
  match n with O => sinit c0 | S n => sstep (state_at c0 sigma n) (sigma n) end.
Definition history (c0 : Z) (sigma : schedule) (n : nat) : list act := s_log (state_at c0 sigma n).

(** every thread gets to execute again and again, and time goes on *)
Definition fair (sigma : schedule) : Prop := forall t n, exists m, n <= m /\ sigma m = MStep t.
Definition time_goes_on (c0 : Z) (sigma : schedule) : Prop := forall T, exists n, (T <= clock_of c0 (history c0 sigma n))%Z.

(** the call that a thread is in *)
Definition in_call (t : tid) (l : list act) : option call :=
  fold_left (fun c a => match a with ACall u d => if u =? t then Some d else c | ARet u _ => if u =? t then None else c | _ => c end) l None.
