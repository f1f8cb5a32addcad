(** What the functions of big.deprecated should do, independently of the code. *)
From Verif Require Import PyStr PyBase DeprModel.
(* only the record [delim] (the attributes of a Delimiter) is used from DeprModel *)

(** * parse_delimiters *)
(** A Delimiter d: d_open, d_close; d_backslash: within it a backslash escapes the next
    character; d_nested: within it other delimiters count. *)
(** The text, with the role of every character: plain, opening delimiter, closing delimiter *)
Inductive tok := Ch (c : chr) | Op (c : chr) | Cl (c : chr).
Definition tok_chr (t : tok) : chr := match t with Ch c | Op c | Cl c => c end.
Section Nesting.
  Context (ps : list delim).
  (** a character that only closes *)
  Definition closing (c : chr) : Prop := exists p, In p ps /\ d_close p = [c] /\ d_open p <> [c].
  Definition opening (c : chr) : Prop := exists p, In p ps /\ d_open p = [c].
  (** None: not inside any delimiters *)
  Definition escapes (ctx : option delim) : Prop := match ctx with Some p => d_backslash p = true | None => False end.
  Definition nests (ctx : option delim) : Prop := match ctx with Some p => d_nested p = true | None => True end.
  Definition ends (ctx : option delim) (c : chr) : Prop := match ctx with Some p => d_close p = [c] | None => False end.
  (** well nested text inside [ctx] *)
  Inductive nested (ctx : option delim) : list tok -> Prop :=
  | nested_end : nested ctx []
  | nested_char c t : ~ ends ctx c -> (nests ctx -> ~ closing c /\ ~ opening c) -> (escapes ctx -> c <> 92%N) -> nested ctx t -> nested ctx (Ch c :: t)
  | nested_escape c t : escapes ctx -> nested ctx t -> nested ctx (Ch 92%N :: Ch c :: t)
  | nested_group p o c inner t : nests ctx -> In p ps -> d_open p = [o] -> ~ ends ctx o -> ~ closing o -> d_close p = [c] ->
      nested (Some p) inner -> nested ctx t -> nested ctx (Op o :: inner ++ Cl c :: t).
End Nesting.
(** The tuples (text, open, close) to yield *)
Fixpoint tuples (text : str) (l : list tok) : list (str * str * str) :=
  match l with
  | [] => match text with [] => [] | _ => [(text, [], [])] end
  | Ch c :: t => tuples (text ++ [c]) t
  | Op c :: t => (text, [c], []) :: tuples [] t
  | Cl c :: t => (text, [], [c]) :: tuples [] t
  end.

(** * split_quoted_strings *)
Section Quotes.
  Context (quote : chr -> Prop) (triple_quotes : bool) (escape : chr -> Prop).
  Definition starts (w s : str) : Prop := exists r, s = w ++ r.
  (** In s the first [stop] that is not escaped comes after [body]; then comes [rest]. *)
  Inductive stops (stop : str) : str -> str -> str -> Prop :=
  | stops_here rest : (forall c t, stop = c :: t -> ~ escape c) -> stops stop (stop ++ rest) [] rest
  | stops_escape e c s body rest : escape e -> stops stop s body rest -> stops stop (e :: c :: s) (e :: c :: body) rest
  | stops_char c s body rest : ~ escape c -> ~ starts stop (c :: s) -> stops stop s body rest -> stops stop (c :: s) (c :: body) rest.
  (** there is no [stop] that is not escaped *)
  Inductive never_stops (stop : str) : str -> Prop :=
  | never_end : never_stops stop []
  | never_escape_end e : escape e -> never_stops stop [e]
  | never_escape e c s : escape e -> never_stops stop s -> never_stops stop (e :: c :: s)
  | never_char c s : ~ escape c -> ~ starts stop (c :: s) -> never_stops stop s -> never_stops stop (c :: s).
  (** the opening quote mark (three of them, if that is allowed and there are three) *)
  Definition opens (s mark rest : str) : Prop :=
    exists q, quote q /\ s = mark ++ rest /\
    if triple_quotes then (mark = [q; q; q] \/ mark = [q] /\ rest <> [] /\ ~ starts [q] rest) else mark = [q].
  (** the segments of s; Some RuntimeError: it fails *)
  Inductive quoted_segments : str -> list (bool * str) -> option exn -> Prop :=
  | seg_end : quoted_segments [] [] None
  | seg_plain p s l e : p <> [] -> (forall c, In c p -> ~ quote c) -> (forall c t, s = c :: t -> quote c) ->
      quoted_segments s l e -> e = None \/ l <> [] -> quoted_segments (p ++ s) ((false, p) :: l) e
  | seg_quoted s mark s' body rest l e : opens s mark s' -> stops mark s' body rest -> quoted_segments rest l e ->
      quoted_segments s ((true, mark ++ body ++ mark) :: l) e
  | seg_open s mark s' : opens s mark s' -> never_stops mark s' -> quoted_segments s [(true, s)] None
  | seg_two q s l e : triple_quotes = true -> quote q -> ~ starts [q] s -> quoted_segments s l e -> quoted_segments (q :: q :: s) ((true, [q; q]) :: l) e
  (** a quote mark at the very end, not inside quotes: what is before it is lost, too *)
  | seg_fails p q : triple_quotes = true -> quote q -> (forall c, In c p -> ~ quote c) -> quoted_segments (p ++ [q]) [] (Some RuntimeError).
End Quotes.

(** The arguments of parse_delimiters: Delimiter objects, or strings of two characters *)
Definition delims_given (args : list delim_arg) (ds : list delim) : Prop :=
  Forall2 (fun a d => match a with
                      | DObj d' => d = d'
                      | DStr s => exists x y, s = [x; y] /\ d = mkDelim [x] [y] false true
                      | DOther => False
                      end) args ds.
(** the documented default delimiters: round, square and curly brackets, in which nothing is
    escaped and other delimiters count; quote marks, in which a backslash escapes and other
    delimiters do not count *)
Definition documented_default : list delim :=
  map (fun oc : N * N => mkDelim [fst oc] [snd oc] false true) [(40, 41); (91, 93); (123, 125)]%N ++
  map (fun q => mkDelim [q] [q] true false) [39; 34]%N.
(** no backslash, and no two with the same opening delimiter *)
Definition legal_delims (ds : list delim) : Prop :=
  (forall d, In d ds -> d_open d <> [92%N] /\ d_close d <> [92%N]) /\ NoDup (map d_open ds).

(** * lines_strip_comments *)
From Verif Require Import LinesSpec LinesSpec2 SplitSpec.
Section OldComments.
  Context (markers : list str) (space : chr -> bool) (do_rstrip : bool) (segmented : str -> list (bool * str) -> option exn -> Prop).
  (** no comment starts in the segment *)
  Definition no_marker (g : bool * str) : Prop := fst g = true \/ sep_free markers (snd g).
  (** the text before the first marker outside quotes *)
  Definition before_marker (segs : list (bool * str)) (kept : str) : Prop :=
    exists before text after x w t, segs = before ++ (false, text) :: after /\ Forall no_marker before /\
      text = x ++ w ++ t /\ In w markers /\ (forall i, i < length x -> ~ sep_at markers text i) /\ kept = concat (map snd before) ++ x.
  Definition right_stripped (s r : str) : Prop := exists ws, s = r ++ ws /\ all_of space ws /\ not_at_end space r.
  Definition old_comment_stripped (p q : info * str) : Prop :=
    exists segs e, segmented (snd p) segs e /\
    ((e = None /\ Forall no_marker segs /\ q = p) \/
     (exists kept r b, before_marker segs kept /\ (if do_rstrip then right_stripped kept r else r = kept) /\ taken_off [] r b p q)).
  Inductive old_comments_stripped (up : option exn) : list (info * str) -> list (info * str) -> option exn -> Prop :=
  | ocs_end : old_comments_stripped up [] [] up
  | ocs_line p q l l' e : old_comment_stripped p q -> old_comments_stripped up l l' e -> old_comments_stripped up (p :: l) (q :: l') e
  (** the segments cannot be found, and there is no marker in those found before *)
  | ocs_fails p l segs e : segmented (snd p) segs (Some e) -> Forall no_marker segs -> old_comments_stripped up (p :: l) [] (Some e).
End OldComments.
