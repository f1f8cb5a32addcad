(** Specification for multisplit with strip, and for str.split without a separator. *)
From Verif Require Export SplitModel SplitSpec.

(** strings (each with the separator after it) and a last string: without the empty strings at the end *)
Fixpoint strip_end (l : list (str * str)) (y : str) : list (str * str) * str :=
  match l with
  | [] => ([], y)
  | (x, w) :: t => match strip_end t y with ([], []) => ([], x) | (t', y') => ((x, w) :: t', y') end
  end.
(** without the empty strings at the beginning *)
Fixpoint strip_start (l : list (str * str)) (y : str) : list (str * str) * str :=
  match l with ([], _) :: t => strip_start t y | _ => (l, y) end.

(** str.split(None, n): words are runs of characters that are not white space ([p]); after n
    words the rest from the next word on is one string, whatever it ends with. *)
Inductive ws_split (p : chr -> bool) : option nat -> str -> list str -> Prop :=
| ws_none n a : forallb p a = true -> ws_split p n a []
| ws_rest a c t : forallb p a = true -> p c = false -> ws_split p (Some 0) (a ++ c :: t) [c :: t]
| ws_word n a w r l :
    n <> Some 0 -> forallb p a = true -> w <> [] -> forallb (fun c => negb (p c)) w = true ->
    match r with c :: _ => p c = true | [] => True end ->
    ws_split p (option_map pred n) r l -> ws_split p n (a ++ w ++ r) (w :: l).
(** str.rsplit(None, n): the mirror image *)
Definition ws_rsplit (p : chr -> bool) (n : option nat) (s : str) (l : list str) : Prop := ws_split p n (rev s) (rev (map (@rev chr) l)).
