(** What the functions should do with arguments of the wrong type or empty (C104, C105). *)
From Verif Require Export TypedModel.

(** the separators that an argument stands for, when it is one the documentation allows for an s of type [k]: a string, for its
    characters, or a collection or iterator of strings *)
Inductive stands_for (k : kind) : obj -> list str -> Prop :=
| of_text c v : v <> [] -> stands_for k (OText k c v) (map (fun x => [x]) v)
| of_seq l seps : l <> [] -> Forall2 (fun o v => exists c, o = OText k c v) l seps -> stands_for k (OSeq l) seps
| of_iter l seps : l <> [] -> Forall2 (fun o v => exists c, o = OText k c v) l seps -> stands_for k (OIter l) seps.
Definition iterator (o : obj) : Prop := exists l, o = OIter l.

(** an object that is not a string of type k *)
Definition foreign (k : kind) (o : obj) : Prop := forall c v, o <> OText k c v.
(** what is wrong with the argument separators (None is not allowed): the first thing that is decides *)
Inductive wrong (k : kind) : obj -> exn -> Prop :=
| wrong_empty o : o = ONone \/ o = OOther false \/ o = OSeq [] \/ (exists c, o = OText k c []) -> wrong k o ValueError
| wrong_kind k' c v : k' <> k -> wrong k (OText k' c v) TypeError
| wrong_no_iter : wrong k (OOther true) TypeError
| wrong_type_in o good x rest : o = OSeq (good ++ x :: rest) \/ o = OIter (good ++ x :: rest) ->
    Forall (fun g => exists c v, g = OText k c v /\ v <> []) good -> foreign k x -> wrong k o TypeError
| wrong_empty_in o good c rest : o = OSeq (good ++ OText k c [] :: rest) \/ o = OIter (good ++ OText k c [] :: rest) ->
    Forall (fun g => exists c v, g = OText k c v /\ v <> []) good -> wrong k o ValueError.
(** the same when None stands for whitespace and strings inside may be empty *)
Inductive wrong_for_split (k : kind) : obj -> exn -> Prop :=
| split_empty_ o : o = OOther false \/ o = OSeq [] \/ (exists c, o = OText k c []) -> wrong_for_split k o ValueError
| split_kind k' c v : k' <> k -> wrong_for_split k (OText k' c v) TypeError
| split_no_iter : wrong_for_split k (OOther true) TypeError
| split_type_in o l x : o = OSeq l \/ o = OIter l -> In x l -> foreign k x -> wrong_for_split k o TypeError.

(** a str or bytes like s, and not of a subclass *)
Definition plain (k : kind) (o : obj) : Prop := exists v, o = OText k None v.
Definition like (k : kind) (o : obj) : Prop := exists c v, o = OText k c v.
Definition parts (i : oitem) : list obj := match i with OOne o => [o] | OTwo a b => [a; b] end.
(** the characters of what was yielded *)
Definition value (o : obj) : str := match o with OText _ _ v => v | _ => [] end.
Definition untyped (i : oitem) : item := match i with OOne o => Str (value o) | OTwo a b => Two (value a) (value b) end.
