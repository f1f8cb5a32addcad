(** What LineInfo.clip_leading and clip_trailing should do, independently of the code. *)
From Verif Require Import PyStr LinesModel LinesSpec.
(* only the records [info] and [pair] are used from LinesModel, and the functions in [clip_calls] *)

(** [q] is [p] with [a] clipped from the front of the line and [b] from its end; [r] is left.  If
    something is left, what was clipped goes to leading and trailing, and the column advances by
    [width] columns; if nothing is left everything but the line break goes to trailing. *)
Definition clipped (a r b : str) (width : Z) (p q : pair) : Prop :=
  snd p = a ++ r ++ b /\ snd q = r /\ identity q = identity p /\ i_indent (fst q) = i_indent (fst p) /\
  (r <> [] -> i_leading (fst q) = i_leading (fst p) ++ a /\ i_trailing (fst q) = b ++ i_trailing (fst p) /\ i_column (fst q) = (i_column (fst p) + width)%Z) /\
  (r = [] -> i_leading (fst q) = [] /\ i_trailing (fst q) ++ i_end (fst q) = i_line (fst q) /\
     i_column (fst q) = (i_column (fst p) - Z.of_nat (length (i_leading (fst p))))%Z).
(** the position in a string of [len] characters that the slice index [n] means *)
Definition position (len n : Z) : nat := Z.to_nat (if (n <? 0)%Z then len + n else n).

(** any number of calls, each with the line that the one before it returned *)
Inductive clip_calls (tab_width : Z) : pair -> pair -> Prop :=
| calls_none p : clip_calls tab_width p p
| calls_leading_string i a r q z : clip_leading tab_width i (a ++ r) (ByStr a) = Ok q -> clip_calls tab_width q z -> clip_calls tab_width (i, a ++ r) z
| calls_leading_int i line n q z : clip_leading tab_width i line (ByInt n) = Ok q -> clip_calls tab_width q z -> clip_calls tab_width (i, line) z
| calls_trailing_string i r b q z : clip_trailing i (r ++ b) (ByStr b) = Ok q -> clip_calls tab_width q z -> clip_calls tab_width (i, r ++ b) z
| calls_trailing_int i line n q z : clip_trailing i line (ByInt n) = Ok q -> clip_calls tab_width q z -> clip_calls tab_width (i, line) z.
(** the column of the first character left, where the line starts in column [start] *)
Definition column_law start (p : pair) : Prop := i_column (fst p) = (start + Z.of_nat (length (i_leading (fst p))))%Z.
