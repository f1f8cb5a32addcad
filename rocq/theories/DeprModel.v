(** Model of big/deprecated.py: split_quoted_strings, Delimiter, parse_delimiters and
    lines_strip_comments.  A string is a list of code points; bytes and str differ only in
    what whitespace is; the checks that s and the other arguments are both str or both bytes
    are not modelled.  A generator is the list of what it yields and the exception that ends it. *)
From Verif Require Export LinesModel.

Definition backslash_chr : chr := 92%N.

(** * big/deprecated.py:90-228 split_quoted_strings *)
Section QuotedOld.
  (** the arguments; each element of quotes is compared with one character.  (backslash=None
      means backslash='\\'; a backslash that is not one character never matches.) *)
  Context (quotes : list str) (triple_quotes : bool) (backslash : str).
  (** c in quotes *)
  Definition is_quote (c : chr) : bool := existsb (str_eqb [c]) quotes.
  (** lines 146-148, 158-160, ...: if text: yield False, empty_join(text); text.clear() *)
  Definition flush_text (text : str) (g : generated (bool * str)) : generated (bool * str) :=
    if is_nil text then g else yield_ (false, text) g.
  (** lines 134-228: the loop.  Its variables: text (joined), in_quote, in_triple_quote (only
      whether it is true), in_backslash.  The PushbackIterator is the rest of s: next takes
      a character, push puts it back.  next(i) at the end raises StopIteration, which a
      generator turns into RuntimeError. *)
  Fixpoint old_loop (s : str) (text : str) (in_quote : option chr) (in_triple in_backslash : bool) {struct s} : generated (bool * str) :=
    match s with
    | [] => if is_nil text then ([], None) else ([((match in_quote with Some _ => true | None => false end), text)], None)
    | c :: t =>
        match in_quote with
        | None =>
            if negb (is_quote c) then old_loop t (text ++ [c]) None in_triple in_backslash
            else if negb triple_quotes then flush_text text (old_loop t [c] (Some c) in_triple in_backslash)
            else match t with
                 | [] => ([], Some RuntimeError)
                 | c2 :: t2 =>
                     if negb (c2 =? c)%N then flush_text text (old_loop t [c] (Some c) in_triple in_backslash)
                     else match t2 with
                          | c3 :: t3 =>
                              if (c3 =? c)%N then flush_text text (old_loop t3 [c; c; c] (Some c) true in_backslash)
                              else flush_text text (yield_ (true, [c; c]) (old_loop t2 [] None in_triple in_backslash))
                          | [] => flush_text text (yield_ (true, [c; c]) (old_loop t2 [] None in_triple in_backslash))
                          end
                 end
        | Some q =>
            if in_backslash then old_loop t (text ++ [c]) in_quote in_triple false
            else if str_eqb [c] backslash then old_loop t (text ++ [c]) in_quote in_triple true
            else if negb (c =? q)%N then old_loop t (text ++ [c]) in_quote in_triple in_backslash
            else if negb in_triple then yield_ (true, text ++ [c]) (old_loop t [] None in_triple in_backslash)
            else match t with
                 | c2 :: c3 :: t3 =>
                     if (c =? c2)%N && (c2 =? c3)%N then yield_ (true, text ++ [c; c; c]) (old_loop t3 [] None false in_backslash)
                     else old_loop t (text ++ [c]) in_quote in_triple in_backslash
                 | _ => old_loop t (text ++ [c]) in_quote in_triple in_backslash
                 end
        end
    end.
  Definition split_quoted_strings_old (s : str) : generated (bool * str) := old_loop s [] None false false.
End QuotedOld.

(** * big/deprecated.py:231-257 Delimiter *)
Record delim := mkDelim { d_open : str; d_close : str; d_backslash : bool; d_nested : bool }.
(** lines 259-300: the default delimiters, () [] {} '' "" *)
Definition default_delims : list delim :=
  [mkDelim (u "(") (u ")") false true; mkDelim (u "[") (u "]") false true; mkDelim (u "{") (u "}") false true;
   mkDelim (u "'") (u "'") true false; mkDelim [34%N] [34%N] true false].

(** * big/deprecated.py:309-372 the generator.  The current delimiter is None for
    _base_delimiter (open and close None, backslash False, nested True). *)
Section ParseOld.
  Context (ds : list delim) (closers : list str).
  Definition cur_backslash (d : option delim) : bool := match d with Some d => d_backslash d | None => false end.
  Definition cur_nested (d : option delim) : bool := match d with Some d => d_nested d | None => true end.
  Definition is_close (d : option delim) (c : chr) : bool := match d with Some d => str_eqb [c] (d_close d) | None => false end.
  (** open_to_delimiter.get(c): the last one with this open *)
  Definition opener (c : chr) : option delim := find (fun d => str_eqb (d_open d) [c]) (rev ds).
  (** [stack] has its last element first *)
  Fixpoint parse_loop (s : str) (text : str) (d : option delim) (stack : list (option delim)) (quoted : bool) : generated triple :=
    match s with
    | [] => match stack with
            | _ :: _ => ([], Some ValueError)                                  (* lines 366-369 *)
            | [] => if is_nil text then ([], None) else ([(text, [], [])], None)
            end
    | c :: t =>
        if quoted then parse_loop t (text ++ [c]) d stack false
        else if is_close d c then
          yield_ (text, [], [c]) (match stack with [] => ([], Some IndexError) | d' :: stack => parse_loop t [] d' stack false end)
        else if cur_nested d && existsb (str_eqb [c]) closers then ([], Some ValueError)
        else match (if cur_nested d then opener c else None) with
             | Some next_d => yield_ (text, [c], []) (parse_loop t [] (Some next_d) (d :: stack) false)
             | None => parse_loop t (text ++ [c]) d stack (cur_backslash d && (c =? backslash_chr)%N)
             end
    end.
End ParseOld.

(** an element of the argument delimiters: a Delimiter, a string, something else *)
Inductive delim_arg := DObj (d : delim) | DStr (s : str) | DOther.
(** big/deprecated.py:424-436 *)
Fixpoint convert_delims (l : list delim_arg) : result (list delim) :=
  match l with
  | [] => Ok []
  | DObj d :: t => rmap (cons d) (convert_delims t)
  | DStr [a; b] :: t => rmap (cons (mkDelim [a] [b] false true)) (convert_delims t)
  | DStr _ :: _ => Err ValueError
  | DOther :: _ => Err TypeError
  end.
(** big/deprecated.py:449-463: closers *)
Definition closers_of (ds : list delim) : list str := map d_close (filter (fun d => negb (str_eqb (d_close d) (d_open d))) ds).
(** big/deprecated.py:377-468 parse_delimiters *)
Definition parse_delimiters (s : str) (delimiters : option (list delim_arg)) : result (generated triple) :=
  match delimiters with
  | Some [] => Err ValueError
  | _ =>
      rbind (match delimiters with Some l => convert_delims l | None => Ok default_delims end) (fun ds =>
      if existsb (fun d => str_eqb (d_open d) [backslash_chr] || str_eqb (d_close d) [backslash_chr]) ds then Err ValueError
      else if has_repeats (map d_open ds) then Err ValueError
      else Ok (parse_loop ds (closers_of ds) s [] None [] false))
  end.

(** * big/deprecated.py:471-566 lines_strip_comments *)
Section CommentsOld.
  Context (is_bytes : bool) (markers quotes : list str) (backslash : str) (do_rstrip triple_quotes : bool).
  (** lines 541-559: the segments that are kept (joined), looking at the segments in turn;
      [up] is the exception that ends split_quoted_strings *)
  Fixpoint keep_segments (segments : list (bool * str)) (up : option exn) : result str :=
    match segments with
    | [] => match up with Some e => Err e | None => Ok [] end
    | (true, segment) :: rest => rmap (app segment) (keep_segments rest up)
    | (false, segment) :: rest =>
        match re_split (separators_re markers true) (Some 1) segment with
        | ([], leading) => rmap (app leading) (keep_segments rest up)
        | ((leading, _) :: _, _) => Ok (if do_rstrip then rstrip is_bytes leading else leading)
        end
    end.
  (** lines 532-565 *)
  Definition strip_comment_old (p : pair) : result (option pair) :=
    let '(i, line) := p in
    let '(segments, up) := if is_nil quotes then ([(false, line)], None) else split_quoted_strings_old quotes triple_quotes backslash line in
    rbind (keep_segments segments up) (fun kept =>
    let removing := (Z.of_nat (length line) - Z.of_nat (length kept))%Z in
    if (removing =? 0)%Z then Ok (Some p) else rmap Some (clip_trailing i line (ByInt removing))).
  Definition lines_strip_comments_old (li : generated pair) : result (generated pair) :=
    if is_nil markers then Err ValueError else Ok (for_each strip_comment_old (fst li) (snd li)).
End CommentsOld.
