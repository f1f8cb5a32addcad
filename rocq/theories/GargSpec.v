(** Which objects may be given to gently_title as apostrophes and double_quotes (C114). *)
From Verif Require Export GargModel TypedSpec.

(** the marks an argument stands for: those of [default] for None, the characters of a string like s, or the strings of a collection or iterator *)
Inductive marks_are (k : kind) (default : list str) : obj -> list str -> Prop :=
| marks_default : marks_are k default ONone default
| marks_given o m : stands_for k o m -> ~ In [] m -> marks_are k default o m
| marks_none : marks_are k default (OIter []) [].
(** what is wrong with such an argument; the first thing that is decides *)
Inductive wrong_marks (k : kind) : obj -> exn -> Prop :=
| marks_empty o : o = OSeq [] \/ (exists k' c, o = OText k' c []) -> wrong_marks k o ValueError
| marks_kind k' c v : k' <> k -> v <> [] -> wrong_marks k (OText k' c v) TypeError
| marks_no_iter b : wrong_marks k (OOther b) TypeError
| marks_type_in o good x rest : o = OSeq (good ++ x :: rest) \/ o = OIter (good ++ x :: rest) ->
    Forall (fun g => exists c v, g = OText k c v /\ v <> []) good -> foreign k x -> wrong_marks k o TypeError
| marks_empty_in o good c rest : o = OSeq (good ++ OText k c [] :: rest) \/ o = OIter (good ++ OText k c [] :: rest) ->
    Forall (fun g => exists c v, g = OText k c v /\ v <> []) good -> wrong_marks k o ValueError.
