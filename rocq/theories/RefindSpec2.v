(** What re_partition and re_rpartition do with any pattern - with anchors, lookaround, and
    empty matches.  Independent of the model but for the items. *)
From Verif Require Export RefindSpec.

(** The matches re's finditer yields, from [pos] on; [adv] says that the match before was an
    empty one at [pos], so that another must not follow there. *)
Definition match_here (p : pattern) (s : str) (pos : nat) (adv : bool) (q : nat) : option nat :=
  if adv && (q =? pos) then p_match_nonempty p s q (length s) else p_match p s q (length s).
Fixpoint found (p : pattern) (s : str) (pos : nat) (adv : bool) (l : list span) : Prop :=
  match l with
  | [] => forall q, pos <= q <= length s -> match_here p s pos adv q = None
  | (a, e) :: l => pos <= a /\ match_here p s pos adv a = Some e /\ (forall q, pos <= q < a -> match_here p s pos adv q = None) /\
                   found p s e (a =? e) l
  end.
(** The first and the last place where w is in t. *)
Definition first_place (w t x y : str) : Prop := t = x ++ w ++ y /\ forall x' y', t = x' ++ w ++ y' -> length x <= length x'.
Definition last_place (w t x y : str) : Prop := t = x ++ w ++ y /\ forall x' y', t = x' ++ w ++ y' -> length x' <= length x.
(** Cutting t at the first place where the text of each match is in what is left. *)
Inductive cuts (s : str) : nat -> list span -> str -> list item -> Prop :=
| cuts_enough ms t : cuts s 0 ms t [Text t]
| cuts_none n t : cuts s (S n) [] t (Text t :: concat (repeat [NoMatch; Text []] (S n)))
| cuts_match n m ms t x y items : group0 s m <> [] -> first_place (group0 s m) t x y -> cuts s n ms y items ->
    cuts s (S n) (m :: ms) t (Text x :: Match m :: items).
(** From the right, at the last place. *)
Inductive rcuts (s : str) : nat -> list span -> str -> list item -> Prop :=
| rcuts_enough ms t : rcuts s 0 ms t [Text t]
| rcuts_none n t : rcuts s (S n) [] t (concat (repeat [Text []; NoMatch] (S n)) ++ [Text t])
| rcuts_match n m ms t x y items : group0 s m <> [] -> last_place (group0 s m) t x y -> rcuts s n ms x items ->
    rcuts s (S n) (m :: ms) t (items ++ [Match m; Text y]).
(** A match that is the empty string. *)
Definition empty_match (m : span) : Prop := fst m = snd m.
