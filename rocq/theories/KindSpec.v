(** What it means that a function treats str and bytes alike (C135). *)
From Verif Require Export TypedModel.

(** The texts for which str and bytes can agree: ASCII, and without the characters that are whitespace, or line breaks, as str and not as bytes. *)
Definition ascii (c : chr) : Prop := (c < 128)%N.
Definition ordinary_space (c : chr) : Prop := ascii c /\ ~ (28 <= c <= 31)%N.
Definition ordinary_break (c : chr) : Prop := ascii c /\ ~ In c [11; 12; 28; 29; 30]%N.
Definition ordinary (c : chr) : Prop := ordinary_space c /\ ordinary_break c.

(** The same call with bytes in place of str, or the other way round: the arguments ... *)
Definition swap (k : kind) : kind := match k with KStr => KBytes | KBytes => KStr end.
Fixpoint swap_obj (o : obj) : obj :=
  match o with
  | OText k cls s => OText (swap k) cls s
  | OSeq l => OSeq (map swap_obj l)
  | OIter l => OIter (map swap_obj l)
  | ONone | OOther _ => o
  end.
(** ... and what comes back *)
Definition swap_item (i : oitem) : oitem := match i with OOne o => OOne (swap_obj o) | OTwo a b => OTwo (swap_obj a) (swap_obj b) end.
