(** Which __init__ runs, and what it gets, for any classes. *)
From Verif Require Import BicModel.

Section Inits.
  (** decorated with BoundInnerClass; the method resolution order of a class; has an __init__; its __init__ has a parameter for the outer object;
      and what a bound class passes for it: the outer object, or None if it has been collected *)
  Context (bound : cid -> bool) (mro : cid -> list cid) (defines takes_outer : cid -> bool) (outer : option oid).
  (** [inits l r]: running __init__ from the rest [l] of the method resolution order of the class on has result [r] *)
  Inductive inits : list cid -> result (list event) -> Prop :=
  | inits_end : inits [] (Ok [])                                                                                   (* object.__init__ *)
  | inits_none x l r : bound x = false -> defines x = false -> inits l r -> inits (x :: l) r
  | inits_plain x l r : bound x = false -> defines x = true -> takes_outer x = false -> inits l r -> inits (x :: l) (rmap (cons (x, None)) r)
  | inits_missing x l : bound x = false -> defines x = true -> takes_outer x = true -> inits (x :: l) (Err TypeError) (* nothing is passed for outer *)
  (** A bound class calls the __init__ that the class itself has or inherits: the first one, y, in the order of x, not in that of the object's
      class.  After it comes what is after y: classes between x and y are left out. *)
  | inits_bound x y l skipped l' r : bound x = true -> find defines (mro x) = Some y -> takes_outer y = true -> x :: l = skipped ++ y :: l' ->
      inits l' r -> inits (x :: l) (rmap (cons (y, Some outer)) r)
  | inits_unwanted x l : bound x = true -> match find defines (mro x) with Some y => takes_outer y = false | None => True end ->
      inits (x :: l) (Err TypeError).                                                                               (* outer is passed to an __init__ that does not want it *)
End Inits.
