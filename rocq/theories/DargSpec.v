(** Specification for the arguments of split_quoted_strings, Delimiter and split_delimiters: what
    an argument of the right type gives. *)
From Verif Require Import DelimModel TypedModel DargModel.

(** Python's == on str and bytes: the same type and the same characters; and they equal no other object *)
Definition equality_ok (same : obj -> obj -> bool) : Prop :=
  (forall k c a k' c' b, same (OText k c a) (OText k' c' b) = kind_eqb k k' && str_eqb a b) /\
  (forall k c a o, (forall k' c' b, o <> OText k' c' b) -> same (OText k c a) o = false /\ same o (OText k c a) = false).
(** a list of str or bytes like s; or a str or bytes like s, which stands for its characters; or an empty one of either type *)
Definition texts (k : kind) (l : list obj) (q : list str) : Prop := Forall2 (fun o v => exists c, o = OText k c v) l q.
Definition strings (k : kind) (o : obj) (q : list str) : Prop :=
  (exists l, o = OSeq l /\ texts k l q) \/ (exists c v, o = OText k c v /\ q = map (fun c => [c]) v) \/ (exists k' c, o = OText k' c [] /\ q = []).
(** quotes: None and the default for the other type mean the default *)
Definition quotes_arg (same : obj -> obj -> bool) (k : kind) (o : obj) (q : list str) : Prop :=
  if same o (default_quotes (other k)) then q = default_marks else o = ONone /\ q = default_marks \/ strings k o q.
Definition multiline_arg (k : kind) (o : obj) (m : list str) : Prop := o = ONone /\ m = [] \/ strings k o m.
(** escape: None and a backslash of the other type mean the default; anything false will do if there are multiline quotes *)
Definition escape_arg (k : kind) (o : obj) (m : list str) (e : str) : Prop :=
  (o = ONone \/ exists c, o = OText (other k) c backslash) /\ e = backslash \/
  (exists c, o = OText k c e) \/ o <> ONone /\ m <> [] /\ truth o = false /\ e = [].
(** state: None or an empty string of either type, or a string *)
Definition state_arg (k : kind) (o : obj) (st : str) : Prop :=
  (o = ONone \/ exists k' c, o = OText k' c []) /\ st = [] \/ exists c, o = OText k c st.

(** delimiters: all strings are of the type of s *)
Definition delim_arg (k : kind) (p : obj * (delim_obj + obj)) (t : str * delimiter) : Prop :=
  exists c1 c2 c3 v, p = (OText k c1 (fst t), inl v) /\ v_close v = OText k c2 (d_close (snd t)) /\ v_escape v = OText k c3 (d_escape (snd t)) /\
    v_multiline v = d_multiline (snd t) /\ v_quoting v = d_quoting (snd t).
(** state of split_delimiters: anything false, a collection or an iterator of strings, or a string *)
Definition state_arg2 (k : kind) (o : obj) (keys : list str) : Prop :=
  truth o = false /\ keys = [] \/ (exists l, (o = OSeq l \/ o = OIter l) /\ texts k l keys) \/ (exists c v, o = OText k c v /\ keys = map (fun c => [c]) v).
