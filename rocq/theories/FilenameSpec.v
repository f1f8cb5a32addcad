(** Specification of the filename translations. *)
From Verif Require Export PyStr.
Open Scope N_scope.
Definition control (c : chr) : bool := (1 <=? c) && (c <? 32).
(** the characters not allowed in an exFAT filename: control characters and / \ : * ? double-quote < > | *)
Definition exfat_illegal (c : chr) : Prop := c < 32 \/ In c (u "/\:*?""<>|").
(** what becomes of a character, given the one that follows it *)
Definition exfat_spelling (c : chr) (next : option chr) : str :=
  if c =? 58 then (match next with Some d => if d =? 32 then u " -" else u "." | None => u "." end)
  else if existsb (N.eqb c) (u "/\") then u "-" else if (c =? 0) || (c =? c1 "*") then u "@" else if c =? c1 "?" then u "."
  else if c =? c1 """" then u "'" else if c =? c1 "<" then u "{" else if c =? c1 ">" then u "}" else if c =? c1 "|" then u "!"
  else if control c then u "?" ++ nth (N.to_nat (c / 16)) [u "0"; u "1"] [] ++ [nth (N.to_nat (c mod 16)) (u "0123456789abcdef") 0]
  else [c].
Fixpoint exfat_spelled (s : str) : str :=
  match s with [] => [] | c :: t => exfat_spelling c (hd_error t) ++ exfat_spelled t end.
