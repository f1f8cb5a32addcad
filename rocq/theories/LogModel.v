(** Model of big/log.py: class Log. *)
From Verif Require Export PyStr.
Open Scope Z_scope.

(** big/log.py:98-103, the attributes (self.end is never read); the innermost subsystem first *)
Record log := MkLog { lg_start : Z; lg_stack : list str; lg_events : list (Z * str * nat); lg_longest : nat }.
(** big/log.py:85-103; [now] is what the clock says *)
Definition log_reset (now : Z) : log := MkLog now [] [(0, u "log start", 0%nat)] (length (u "log start")).
(** big/log.py:127-134 *)
Definition log_call (event : str) (now : Z) (l : log) : log :=
  MkLog (lg_start l) (lg_stack l) (lg_events l ++ [(now - lg_start l, event, length (lg_stack l))]) (max (lg_longest l) (length event)).
(** big/log.py:105-118 *)
Definition log_enter (subsystem : str) (now : Z) (l : log) : log :=
  let l := log_call (subsystem ++ u " start") now l in
  MkLog (lg_start l) (subsystem :: lg_stack l) (lg_events l) (lg_longest l).
(** big/log.py:120-125 *)
Definition log_exit (now : Z) (l : log) : result log :=
  match lg_stack l with
  | [] => Err IndexError
  | subsystem :: stack => Ok (log_call (subsystem ++ u " end") now (MkLog (lg_start l) stack (lg_events l) (lg_longest l)))
  end.
(** big/log.py:136-155: __iter__, with (waiting, the rest) *)
Fixpoint iter_from (waiting : Z * str * nat) (i : list (Z * str * nat)) : list (Z * Z * str * nat) :=
  match i with
  | [] => let '(t, event, depth) := waiting in [(t, 0, event, depth)]
  | e :: i => let '(t, event, depth) := waiting in (t, fst (fst e) - t, event, depth) :: iter_from e i
  end.
Definition log_iter (l : log) : list (Z * Z * str * nat) := match lg_events l with [] => [] | e :: i => iter_from e i end.

Definition spaces (n : nat) : str := repeat 32%N n.
(** padding with zeros: f"{z:>09}" pads in front of a sign, f"{z:02}" after it *)
Definition zeros (width : nat) (s : str) : str := repeat 48%N (width - length s) ++ s.
Definition format_right (width : nat) (z : Z) : str := zeros width (str_int z).
Definition format_zero (width : nat) (z : Z) : str :=
  if z <? 0 then 45%N :: zeros (width - 1) (str_int (- z)) else zeros width (str_int z).
(** big/log.py:179-184 *)
Definition format_time (seconds_width fractional_width : nat) (t : Z) : str :=
  let seconds := t / 1000000000 in
  let nanoseconds := firstn fractional_width (format_right 9 (t - seconds)) in
  format_zero seconds_width seconds ++ u "." ++ nanoseconds.
(** f"{s:{width}}" *)
Definition pad (width : nat) (s : str) : str := s ++ spaces (width - length s).
(** big/log.py:157-197: the lines printed; the widths are not negative.  A title of None is
    suppressed, and so is an empty one. *)
Definition log_print (title : str) (headings : bool) (indent seconds_width fractional_width : nat) (l : log) : list str :=
  let indentation := spaces indent in
  let column_width := (seconds_width + 1 + fractional_width)%nat in
  let fmt := format_time seconds_width fractional_width in
  (match title with [] => [] | _ => [title] end) ++
  (if headings then [indentation ++ pad column_width (u "start") ++ u "  " ++ pad column_width (u "elapsed") ++ u "  event";
                     indentation ++ repeat 45%N column_width ++ u "  " ++ repeat 45%N column_width ++ u "  " ++ repeat 45%N (lg_longest l)]
   else []) ++
  map (fun '(start, elapsed, event, depth) =>
         indentation ++ fmt start ++ u "  " ++ fmt elapsed ++ u "  " ++ concat (repeat indentation depth) ++ event) (log_iter l).

(** The calls a program makes. *)
Inductive log_op := Log (event : str) | Enter (subsystem : str) | Exit | Reset.
Definition log_step (o : log_op) (now : Z) (l : log) : result log :=
  match o with
  | Log event => Ok (log_call event now l)
  | Enter s => Ok (log_enter s now l)
  | Exit => log_exit now l
  | Reset => Ok (log_reset now)
  end.
(** a call that fails leaves the log as it was *)
Fixpoint log_run (l : log) (h : list (log_op * Z)) : log :=
  match h with
  | [] => l
  | (o, now) :: h => log_run (match log_step o now l with Ok l' => l' | Err _ => l end) h
  end.
