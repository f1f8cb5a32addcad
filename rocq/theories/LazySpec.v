(** Iterating over a chain of lines modifiers. *)
From Verif Require Export LazyModel.

Section Spec.
  Context (is_bytes : bool) (start_column tab_width : Z).
  (** next() is called some number of times, and each call comes back: what they did, the generators afterwards, and how often the source has been read *)
  Inductive asked (source : nat -> event) : list gen -> nat -> list event -> list gen -> nat -> Prop :=
  | asked_none gs k : asked source gs k [] gs k
  | asked_next gs k fuel ev gs1 k1 evs gs2 k2 : asked source gs k evs gs1 k1 -> next is_bytes start_column tab_width source fuel gs1 k1 = Some (ev, gs2, k2) ->
      asked source gs k (evs ++ [ev]) gs2 k2.
  (** an iterator that yields l and then ends, or raises an exception *)
  Definition finite (l : list pair) (up : option exn) (k : nat) : event :=
    match nth_error l k with
    | Some p => Yield p
    | None => if k =? length l then match up with Some e => Raise e | None => Stop end else Stop
    end.
  (** an iterator that never ends *)
  Definition endless (line : nat -> pair) (k : nat) : event := Yield (line k).
End Spec.
