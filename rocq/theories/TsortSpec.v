(** What a tsort does. *)
From Verif Require Import PyStr SplitSpec2.

(** a line with two words a b says that b comes after a *)
Definition blank_line (l : str) : Prop := ws_split is_space None l [].
Definition pair_line (l a b : str) : Prop := ws_split is_space None l [a; b].
Definition bad_line (l : str) : Prop := ~ blank_line l /\ forall a b, ~ pair_line l a b.
Definition comes_before (ls : list str) (a b : str) : Prop := exists l, In l ls /\ pair_line l a b.
Definition mentioned (ls : list str) (s : str) : Prop := exists a b, comes_before ls a b /\ (s = a \/ s = b).
Inductive path (e : str -> str -> Prop) : str -> str -> Prop :=
| path1 a b : e a b -> path e a b
| pathS a b c : e a b -> path e b c -> path e a c.
Definition no_circle (e : str -> str -> Prop) : Prop := forall s, ~ path e s s.
(** every item once, and each after those that come before it *)
Definition sorted_out (item : str -> Prop) (e : str -> str -> Prop) (out : list str) : Prop :=
  NoDup out /\ (forall s, In s out <-> item s) /\ forall a b, e a b -> exists x y z, out = x ++ a :: y ++ b :: z.
(** the line without the white space around it *)
Definition stripped (l l' : str) : Prop :=
  exists a b, l = a ++ l' ++ b /\ forallb is_space a = true /\ forallb is_space b = true /\
    (forall c t, l' = c :: t -> is_space c = false) /\ (forall c t, l' = t ++ [c] -> is_space c = false).
