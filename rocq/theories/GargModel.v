(** Model of what gently_title (big/text.py) does with the types of its arguments: [s] is a str, a bytes or an instance of a subclass, apostrophes
    and double_quotes are any objects.  What it does with the characters is in WordsModel.v. *)
From Verif Require Export TypedModel WordsModel.

(** big/text.py:67-74 _iterate_over_bytes when s is bytes, else iter: the objects the loops over apostrophes and double_quotes see *)
Definition marks_iterate (k : kind) (o : obj) : result (list obj) :=
  match k, o with
  | KBytes, OText KBytes _ v => Ok (map (fun c => OText KBytes None [c]) v)
  | _, _ => iterate o
  end.
(** big/text.py:1667-1679 and 1681-1693: None for the default, or the marks.  frozenset(...).__contains__ is [str_in] of them: an instance of a subclass
    of str is assumed to be equal to the str with its characters. *)
Definition marks_arg (k : kind) (o : obj) : result (option (list str)) :=
  match o with
  | ONone => Ok None
  | _ => rbind (marks_iterate k o) (fun l =>
         rbind (check_each k l) (fun m => if truth o then Ok (Some m) else Err ValueError))
  end.
(** big/text.py:1590-1728 gently_title.  An iterator that yields nothing is true, so it gives an empty set of marks. *)
Definition marks_set (default : list str) (m : option (list str)) : chr -> bool :=
  match m with None => fun c => str_in [c] default | Some l => fun c => str_in [c] l end.
Definition gently_title_py (upper : chr -> str) (k : kind) (cls : option nat) (s : str) (apostrophes double_quotes : obj) : result obj :=
  let is_bytes := match k with KBytes => true | KStr => false end in
  rbind (marks_arg k apostrophes) (fun a =>
  rbind (marks_arg k double_quotes) (fun d =>
  Ok (OText k None (gentle_loop is_bytes upper (marks_set (default_apostrophes is_bytes) a) (marks_set (default_double_quotes is_bytes) d) AfterWhitespace s)))).
