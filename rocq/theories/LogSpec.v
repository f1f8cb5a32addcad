(** Specification of Log: counting and bracket matching on the history of calls. *)
From Verif Require Export LogModel.

Definition is_enter (o : log_op) : bool := match o with Enter _ => true | _ => false end.
Definition is_exit (o : log_op) : bool := match o with Exit => true | _ => false end.
(** the number of subsystems entered and not exited *)
Definition nesting (h : list log_op) : Z := Z.of_nat (length (filter is_enter h)) - Z.of_nat (length (filter is_exit h)).
(** no call is a Reset, and every exit() has an enter() before it *)
Definition well_nested (h : list log_op) : Prop := ~ In Reset h /\ forall n, (n <= length h)%nat -> 0 <= nesting (firstn n h).
(** everything entered is exited *)
Inductive balanced : list log_op -> Prop :=
| balanced_nil : balanced []
| balanced_log e h : balanced h -> balanced (Log e :: h)
| balanced_enter s h h' : balanced h -> balanced h' -> balanced (Enter s :: h ++ Exit :: h').
(** what the event of a call says, when [before] is the history before it *)
Inductive says (before : list log_op) : log_op -> str -> Prop :=
| says_log e : says before (Log e) e
| says_enter s : says before (Enter s) (s ++ u " start")
| says_exit s a b : before = a ++ Enter s :: b -> balanced b -> says before Exit (s ++ u " end").
(** how deep the event of a call is: enter() reports outside, and so does exit() *)
Definition depth_of (before : list log_op) (o : log_op) : Z := match o with Exit => nesting before - 1 | _ => nesting before end.
