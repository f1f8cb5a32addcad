(** What multisplit should yield if the empty string is among the separators (C104): the text is cut there as well, between any two characters. *)
From Verif Require Export TypedSpec.

(** the collection l consists of these strings *)
Definition strings (k : kind) (l : list obj) (seps : list str) : Prop := Forall2 (fun o w => exists c, o = OText k c w) l seps.
(** the other separators *)
Definition others_of (seps others : list str) : Prop := forall w, In w others <-> In w seps /\ w <> [].
(** a piece of text falls apart: nothing, and then its characters *)
Definition fall_apart (x : str) : list str := [] :: map (fun c => [c]) x.
(** the same with the separators between: the empty one before each character, and w at the end *)
Definition fall_apart_with (p : str * str) : list str := [[]] ++ flat_map (fun c => [[]; [c]]) (fst p) ++ [snd p].
Definition plain_text (k : kind) (w : str) : oitem := OOne (OText k None w).
