(** Model of LineInfo.__repr__: the attributes it shows, in order.  The text of each value is left out. *)
From Verif Require Import PyBase PyStr LinesModel TypedModel DargModel LargModel.

(** bool(value); an int is false if it is 0; patterns, matches and lines objects are true (the class lines defines neither __bool__ nor __len__) *)
Definition shown_true (v : pyval) : bool :=
  match v with PObj o => truth o | PInt z => negb (z =? 0)%Z | PPattern _ | PMatch _ | PLines _ => true end.
(** list(self.__dict__): each name once *)
Fixpoint names_of (d : attrs) : list str :=
  match d with [] => [] | (n, _) :: d => n :: filter (fun m => negb (str_eqb n m)) (names_of d) end.
(** names.remove(name) *)
Fixpoint remove_name (name : str) (l : list str) : result (list str) :=
  match l with
  | [] => Err ValueError
  | n :: l => if str_eqb n name then Ok l else rmap (cons n) (remove_name name l)
  end.
Fixpoint remove_names (names l : list str) : result (list str) :=
  match names with [] => Ok l | n :: rest => rbind (remove_name n l) (remove_names rest) end.
(** big/text.py:2967 *)
Definition priority_names : list str := [u "lines"; u "line"; u "line_number"; u "column_number"; u "leading"; u "trailing"; u "end"].
(** big/text.py:2965-2978 LineInfo.__repr__ *)
Definition info_repr (d : attrs) : result (list (str * pyval)) :=
  rmap (fun others => flat_map (fun n => match get d n with Some v => if shown_true v then [(n, v)] else [] | None => [] end)
                               (priority_names ++ sort str_ltb others))
       (remove_names priority_names (names_of d)).
