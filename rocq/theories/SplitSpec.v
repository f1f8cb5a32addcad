(** Splitting at separators, independently of the code. *)
From Verif Require Import PyStr.

(** some separator starts at position i of s *)
Definition sep_at (seps : list str) (s : str) (i : nat) : Prop := exists w t, In w seps /\ skipn i s = w ++ t.
(** s contains no separator *)
Definition sep_free (seps : list str) (s : str) : Prop := forall i, ~ sep_at seps s i.
(** w is the longest separator that starts w ++ t *)
Definition longest (seps : list str) (w t : str) : Prop :=
  In w seps /\ forall w' t', In w' seps -> w ++ t = w' ++ t' -> length w' <= length w.
(** w is a maximal run of separators starting w ++ t: each is the longest at its place,
    and none follows *)
Inductive run (seps : list str) : str -> str -> Prop :=
| run_last w t : longest seps w t -> ~ sep_at seps t 0 -> run seps w t
| run_more w w' t : longest seps w (w' ++ t) -> run seps w' t -> run seps (w ++ w') t.
Definition one_split (separate : bool) (seps : list str) (w t : str) : Prop :=
  if separate then longest seps w t else run seps w t.

(** [splits separate seps n s l y]: cutting s from the left, at most n times (None: as
    often as possible), gives l - strings, each with the cut after it - and the last string y *)
Inductive splits (separate : bool) (seps : list str) : option nat -> str -> list (str * str) -> str -> Prop :=
| split_limit s : splits separate seps (Some 0) s [] s
| split_none n s : sep_free seps s -> splits separate seps n s [] s
| split_cut n x w t l y :
    n <> Some 0 ->
    (forall i, i < length x -> ~ sep_at seps (x ++ w ++ t) i) ->      (* leftmost *)
    one_split separate seps w t ->
    splits separate seps (option_map pred n) t l y ->
    splits separate seps n (x ++ w ++ t) ((x, w) :: l) y.

(** The same from the right. *)
(** some separator ends i characters before the end of s *)
Definition sep_ends (seps : list str) (s : str) (i : nat) : Prop := exists w t, In w seps /\ firstn (length s - i) s = t ++ w /\ i <= length s.
Definition rlongest (seps : list str) (t w : str) : Prop :=
  In w seps /\ forall w' t', In w' seps -> t ++ w = t' ++ w' -> length w' <= length w.
Inductive rrun (seps : list str) : str -> str -> Prop :=
| rrun_first t w : rlongest seps t w -> ~ sep_ends seps t 0 -> rrun seps t w
| rrun_more t w w' : rlongest seps (t ++ w') w -> rrun seps t w' -> rrun seps t (w' ++ w).
Definition one_rsplit (separate : bool) (seps : list str) (t w : str) : Prop :=
  if separate then rlongest seps t w else rrun seps t w.
(** cutting from the right *)
Inductive rsplits (separate : bool) (seps : list str) : option nat -> str -> list (str * str) -> str -> Prop :=
| rsplit_limit s : rsplits separate seps (Some 0) s [] s
| rsplit_none n s : sep_free seps s -> rsplits separate seps n s [] s
| rsplit_cut n x w t y l :
    n <> Some 0 ->
    (forall i, i < length x -> ~ sep_ends seps (t ++ w ++ x) i) ->    (* rightmost *)
    one_rsplit separate seps t w ->
    rsplits separate seps (option_map pred n) t l y ->
    rsplits separate seps n (t ++ w ++ x) (l ++ [(y, w)]) x.

(** alternating strings and separators *)
Definition alternating (l : list (str * str)) (y : str) : list str := flat_map (fun q => [fst q; snd q]) l ++ [y].
(** a concatenation of zero or more separators *)
Definition of_seps (seps : list str) (s : str) : Prop := exists l, Forall (fun w => In w seps) l /\ s = concat l.
Definition starts_with_sep (seps : list str) (s : str) : Prop := exists w t, In w seps /\ s = w ++ t.
Definition ends_with_sep (seps : list str) (s : str) : Prop := exists w t, In w seps /\ s = t ++ w.
