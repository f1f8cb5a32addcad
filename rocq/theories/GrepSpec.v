(** What the lines of a file are. *)
From Verif Require Export PyStr RefindModel.

(** In a text file \n, \r\n and \r end a line; in a binary file \n does.  What follows the last
    line break is a line only if it is not empty. *)
Definition line_text (is_bytes : bool) (l : str) : Prop := ~ In 10%N l /\ (is_bytes = false -> ~ In 13%N l).
Inductive line_break (is_bytes : bool) : str -> str -> Prop :=   (* the break, and what follows it *)
| LF rest : line_break is_bytes [10%N] rest
| CRLF rest : is_bytes = false -> line_break is_bytes [13%N; 10%N] rest
| CR rest : is_bytes = false -> (forall r, rest <> 10%N :: r) -> line_break is_bytes [13%N] rest.
Inductive lines_of (is_bytes : bool) : str -> list str -> Prop :=
| NoLine : lines_of is_bytes [] []
| LastLine l : l <> [] -> line_text is_bytes l -> lines_of is_bytes l [l]
| Line l b rest ls : line_text is_bytes l -> line_break is_bytes b rest -> lines_of is_bytes rest ls -> lines_of is_bytes (l ++ b ++ rest) (l :: ls).

(** The lines (numbered from 1) that pass a test: all of them, and in the same order. *)
Definition those {A} (test : A -> Prop) (l r : list A) : Prop :=
  exists t : A -> bool, (forall x, t x = true <-> test x) /\ r = filter t l.
Definition number_from_1 (ls : list str) : list (nat * str) := combine (seq 1 (length ls)) ls.
Definition part_of (w s : str) : Prop := exists a b, s = a ++ w ++ b.
(** the text ends with a line break, or is empty *)
Definition closed (b : bool) (raw : str) : bool :=
  match rev raw with [] => true | c :: _ => (c =? 10)%N || negb b && (c =? 13)%N end.
