(** What multistrip does, exactly, for every string and all separators.  Independent of
    the model. *)
From Verif Require Import PyBase PyStr SplitSpec.

(** What is cut off at the left: a maximal run of separators, each of them the longest
    there; or nothing, if s does not start with a separator. *)
Definition cut_left (seps : list str) (s r : str) : Prop :=
  (exists a, s = a ++ r /\ run seps a r) \/ (~ starts_with_sep seps s /\ r = s).
(** Ends of strings that are cut off at the right: one or more separators, then possibly
    one newline - which need not be a separator. *)
Definition tail (seps : list str) (t : str) : Prop :=
  exists w ws, In w seps /\ Forall (fun v => In v seps) ws /\
    (t = w ++ concat ws \/ t = w ++ concat ws ++ [newline]).
(** The longest such end is cut off; or nothing, if there is none. *)
Definition cut_right (seps : list str) (s r : str) : Prop :=
  (exists t, s = r ++ t /\ tail seps t /\ forall r' t', s = r' ++ t' -> tail seps t' -> length r <= length r') \/
  ((forall r' t', s = r' ++ t' -> ~ tail seps t') /\ r = s).
