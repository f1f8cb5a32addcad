(** Specification vocabulary for combine_splits. *)
From Verif Require Export PyStr.
(** the pieces are cut after k characters *)
Definition cut (pieces : list str) (k : nat) : Prop := exists a b, pieces = a ++ b /\ length (concat a) = k.
