(** What lines_strip, lines_rstrip and lines_convert_tabs_to_spaces should do, independently of the code. *)
From Verif Require Import PyStr LinesModel LinesSpec.
(* only the records [info] and [pair] are used from LinesModel *)

(** [q] is [p] with [a] taken off the front of the line and [b] off its end, and [r] is what is
    left.  What is taken off goes to leading and trailing; but if nothing is left the whole
    line goes to trailing. *)
Definition taken_off (a r b : str) (p q : pair) : Prop :=
  snd p = a ++ r ++ b /\ snd q = r /\ identity q = identity p /\ i_indent (fst q) = i_indent (fst p) /\
  (r <> [] \/ snd p = [] -> i_leading (fst q) = i_leading (fst p) ++ a /\ i_trailing (fst q) = b ++ i_trailing (fst p)) /\
  (r = [] -> snd p <> [] -> i_leading (fst q) = [] /\ i_trailing (fst q) ++ i_end (fst q) = i_line (fst q)).
(** the line of a pair ends with its line break (so does every line that lines() yields) *)
Definition has_its_end (p : pair) : Prop := exists t, i_line (fst p) = t ++ i_end (fst p).
Definition all_of (f : chr -> bool) (s : str) : Prop := forall c, In c s -> f c = true.
Definition not_at_start (f : chr -> bool) (s : str) : Prop := forall c t, s = c :: t -> f c = false.
Definition not_at_end (f : chr -> bool) (s : str) : Prop := forall c t, s = t ++ [c] -> f c = false.

(** [t] is [s], printed from screen column [col], without tabs: a tab goes to the next
    multiple of the tab width; a line break starts again at column 0 *)
Inductive without_tabs (tab_width : Z) : Z -> str -> str -> Prop :=
| wt_end col : without_tabs tab_width col [] []
| wt_tab col s t k : (0 < Z.of_nat k <= tab_width)%Z -> ((col + Z.of_nat k) mod tab_width = 0)%Z ->
    without_tabs tab_width (col + Z.of_nat k) s t -> without_tabs tab_width col (9%N :: s) (repeat 32%N k ++ t)
| wt_break col c s t : c = 10%N \/ c = 13%N -> without_tabs tab_width 0 s t -> without_tabs tab_width col (c :: s) (c :: t)
| wt_char col c s t : c <> 9%N -> c <> 10%N -> c <> 13%N -> without_tabs tab_width (col + 1) s t -> without_tabs tab_width col (c :: s) (c :: t).
