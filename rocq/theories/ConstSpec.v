(** Which characters are white space and line breaks, for Python, Unicode, ASCII and bytes. *)
From Verif Require Import PyStr.
Definition crlf : str := [13; 10]%N.
(** what str.isspace() says *)
Definition python_space (c : chr) : Prop := is_space c = true.
(** the four ASCII separators FS, GS, RS, US are white space for Python, not for Unicode *)
Definition ascii_separator (c : chr) : Prop := (28 <= c <= 31)%N.
(** bytes.isspace(): space, \t, \n, \v, \f, \r *)
Definition bytes_space (c : chr) : Prop := (c = 32 \/ 9 <= c <= 13)%N.
(** where str.splitlines() breaks lines: \n \v \f \r FS GS RS NEL LS PS *)
Definition python_linebreak (c : chr) : Prop := (10 <= c <= 13 \/ 28 <= c <= 30 \/ c = 133 \/ c = 8232 \/ c = 8233)%N.
(** where bytes.splitlines() does *)
Definition bytes_linebreak (c : chr) : Prop := (c = 10 \/ c = 13)%N.
(** the tuple contains exactly these characters, each as a string of its own, once, and crlf if wanted *)
Definition exactly (l : list str) (p : chr -> Prop) (with_crlf : bool) : Prop :=
  NoDup l /\ forall w, In w l <-> (exists c, w = [c] /\ p c) \/ with_crlf = true /\ w = crlf.
