(** Separators that cannot overlap: no end of one (short of the whole) is the beginning of another (or of itself). *)
From Verif Require Import PyStr.

Definition no_overlap (seps : list str) : Prop :=
  forall x v y, x <> [] -> v <> [] -> y <> [] -> In (x ++ v) seps -> In (v ++ y) seps -> False.
