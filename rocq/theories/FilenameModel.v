(** Model of big/file.py: translate_filename_to_exfat and translate_filename_to_unix. *)
From Verif Require Export PyStr.
Open Scope N_scope.

(** str.replace(old, new), for a non-empty old: leftmost occurrences that do not overlap;
    [skip] counts the characters of an occurrence still to be skipped *)
Fixpoint starts_with (p s : str) : bool :=
  match p, s with [], _ => true | x :: p, y :: s => (x =? y) && starts_with p s | _, [] => false end.
Fixpoint replace_from (old new : str) (skip : nat) (s : str) : str :=
  match s with
  | [] => []
  | c :: t => match skip with
              | S k => replace_from old new k t
              | O => if starts_with old s then new ++ replace_from old new (length old - 1) t else c :: replace_from old new O t
              end
  end.
Definition replace (old new s : str) : str := replace_from old new O s.
(** str.translate *)
Definition translate (table : chr -> str) (s : str) : str := concat (map table s).
Definition hex_digit (n : N) : chr := if n <? 10 then 48 + n else 87 + n.
(** big/file.py:293-338, the dictionary; "\x01".."\x1f" become "?01".."?1f" *)
Definition exfat_table (c : chr) : str :=
  if c =? 0 then u "@"
  else if c <? 32 then [63; hex_digit (c / 16); hex_digit (c mod 16)]
  else if c =? 47 then u "-" else if c =? 92 then u "-" else if c =? 42 then u "@" else if c =? 63 then u "."
  else if c =? 34 then u "'" else if c =? 60 then u "{" else if c =? 62 then u "}" else if c =? 124 then u "!"
  else [c].
(** big/file.py:340-354 (the argument is a str) *)
Definition translate_filename_to_exfat (s : str) : result str :=
  match s with
  | [] => Err ValueError
  | _ => Ok (replace (u ":") (u ".") (replace (u ": ") (u " - ") (translate exfat_table s)))
  end.
(** big/file.py:359-364 *)
Definition unix_table (c : chr) : str := if c =? 0 then u "@" else if c =? 47 then u "-" else [c].
(** big/file.py:366-377 *)
Definition translate_filename_to_unix (s : str) : result str :=
  match s with [] => Err ValueError | _ => Ok (translate unix_table s) end.
