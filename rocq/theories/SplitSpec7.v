(** Splitting in parts: a text can be cut into two parts without cutting through a separator. *)
From Verif Require Import PyStr.

(** some separator begins in a and ends in b *)
Definition across (seps : list str) (a b : str) : Prop :=
  exists p w1 w2 q, w1 <> [] /\ w2 <> [] /\ In (w1 ++ w2) seps /\ a = p ++ w1 /\ b = w2 ++ q.
(** The results (strings and separators alternating) for the two parts, A ++ [x] and y :: B, put together.
    If separators are merged ([separate = false]) and those on both sides of the cut meet, they are one. *)
Definition put_together (separate : bool) (A : list str) (x y : str) (B : list str) : list str :=
  match separate, x, y, rev A, B with
  | false, [], [], w :: A', w' :: B' => rev A' ++ [w ++ w'] ++ B'
  | _, _, _, _, _ => A ++ [x ++ y] ++ B
  end.
(** the maxsplit argument for a limit, -1 for none *)
Definition maxsplit_of (n : option nat) : option Z := Some (match n with Some n => Z.of_nat n | None => (-1)%Z end).
