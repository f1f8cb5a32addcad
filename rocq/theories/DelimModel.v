(** Model of big/text.py: split_quoted_strings, Delimiter, split_delimiters.  As in
    SplitModel.v a string is a list of code points and the type checks (str against bytes)
    are not modelled; [is_bytes] only selects what a line break is.  A generator is
    represented by the list of what it yields and the exception that ends it, if any. *)
From Verif Require Export SplitModel.

Definition str_in (w : str) (l : list str) : bool := existsb (str_eqb w) l.
Fixpoint starts_with (p s : str) : bool :=                    (* s.startswith(p) *)
  match p, s with
  | [], _ => true
  | a :: p', b :: s' => (a =? b)%N && starts_with p' s'
  | _ :: _, [] => false
  end.
(** the characters str.splitlines / bytes.splitlines split at; \r\n counts as one *)
Definition is_linebreak (is_bytes : bool) (c : chr) : bool :=
  if is_bytes then ((c =? 10) || (c =? 13))%N
  else (between 10 13 c || between 28 30 c || (c =? 133) || (c =? 8232) || (c =? 8233))%N.
(** s.splitlines() *)
Fixpoint splitlines_aux (is_bytes : bool) (line s : str) : list str :=
  match s with
  | [] => match line with [] => [] | _ => [rev line] end
  | c :: t =>
      if is_linebreak is_bytes c then
        match t with
        | d :: t' => if ((c =? 13) && (d =? 10))%N then rev line :: splitlines_aux is_bytes [] t'
                     else rev line :: splitlines_aux is_bytes [] t
        | [] => rev line :: splitlines_aux is_bytes [] t
        end
      else splitlines_aux is_bytes (c :: line) t
  end.
Definition splitlines (is_bytes : bool) (s : str) : list str := splitlines_aux is_bytes [] s.
(** big/text.py:1910: (len(text.splitlines()) > 1) or (len((text[-1:] + laden).splitlines()) > 1) *)
Definition last1 (s : str) : str := skipn (length s - 1) s.     (* s[-1:] *)
Definition contains_newlines (is_bytes : bool) (text : str) : bool :=
  (1 <? length (splitlines is_bytes text)) || (1 <? length (splitlines is_bytes (last1 text ++ [120%N]))).

Definition triple := (str * str * str)%type.
Definition generated (A : Type) := (list A * option exn)%type.
Definition yield_ {A} (x : A) (g : generated A) : generated A := (x :: fst g, snd g).

(** big/text.py:1890-1891: if literal: buffer.append(literal) *)
Definition add_literal (buffer : list str) (literal : str) : list str := if is_nil literal then buffer else buffer ++ [literal].
Section Quoted.
  Context (is_bytes : bool) (all_quotes multiline_quotes : list str).
  (** big/text.py:1910-1913 *)
  Definition illegal_text (quote text : str) : bool :=
    negb (is_nil quote) && negb (is_nil text) && negb (str_in quote multiline_quotes) && contains_newlines is_bytes text.
  (** big/text.py:1871-1932: the generator.  Python sets [state] to None once it has been
      used; here it becomes the (equally false) empty string. *)
  Fixpoint quoted_loop (pairs : list item) (buffer : list str) (quote state : str) : generated triple :=
    match pairs with
    | Two literal separator :: rest =>
        let buffer := add_literal buffer literal in
        if is_nil quote then
          if negb (str_in separator all_quotes) then quoted_loop rest (buffer ++ [separator]) quote state
          else if is_nil buffer then quoted_loop rest buffer separator state
          else yield_ ([], concat buffer, []) (quoted_loop rest [] separator state)
        else if negb (str_eqb separator quote) then quoted_loop rest (buffer ++ [separator]) quote state
        else
          let text := concat buffer in
          if illegal_text quote text then ([], Some SyntaxError)
          else if is_nil state then yield_ (quote, text, quote) (quoted_loop rest [] [] state)
          else yield_ ([], text, quote) (quoted_loop rest [] [] [])
    | Str _ :: rest => quoted_loop rest buffer quote state       (* keep=AS_PAIRS never yields one *)
    | [] =>
        if is_nil buffer then ([], None)
        else
          let text := concat buffer in
          if is_nil text && is_nil quote then ([], None)
          else if illegal_text quote text then ([], Some SyntaxError)
          else ([((if is_nil state then quote else []), text, [])], None)
    end.
End Quoted.

Fixpoint has_repeats (l : list str) : bool :=                   (* len(set(l)) != len(l) *)
  match l with [] => false | x :: t => str_in x t || has_repeats t end.
(** big/text.py:2114-2126: the separators (a list built from sets and then sorted: the
    order does not matter to multisplit) *)
Definition quote_separators (quotes multiline_quotes : list str) (escape : str) : list str :=
  quotes ++ multiline_quotes ++ (if is_nil escape then [] else map (fun q => escape ++ q) quotes ++ [escape ++ escape]).
(** big/text.py:1937-2133 split_quoted_strings *)
Definition split_quoted_strings (is_bytes : bool) (s : str) (quotes : list str) (escape : str) (multiline_quotes : list str) (state : str)
    : result (generated triple) :=
  if existsb is_nil quotes then Err ValueError
  else if existsb is_nil multiline_quotes then Err ValueError
  else if is_nil (quotes ++ multiline_quotes) then Err ValueError
  else if negb (is_nil state) && negb (str_in state (quotes ++ multiline_quotes)) then Err ValueError
  else if has_repeats quotes then Err ValueError
  else if has_repeats multiline_quotes then Err ValueError
  else if existsb (fun q => str_in q multiline_quotes) quotes then Err ValueError
  else
    match multisplit s (Some (quote_separators quotes multiline_quotes escape)) AsPairs (Some (-1)%Z) false true StripFalse with
    | Err e => Ok ([], Some e)
    | Ok pairs => Ok (quoted_loop is_bytes (quotes ++ multiline_quotes) multiline_quotes pairs [] state state)
    end.

(** big/text.py:2137-2192 Delimiter.__init__ (not the clone case) *)
Record delimiter := mkDelimiter { d_close : str; d_escape : str; d_multiline : bool; d_quoting : bool }.
Definition backslash : str := [92%N].
Definition Delimiter (close escape : str) (multiline quoting : bool) : result delimiter :=
  if str_eqb close backslash then Err ValueError
  else if negb (Bool.eqb (negb (is_nil escape)) quoting) then Err ValueError
  else if negb (quoting || multiline) then Err ValueError
  else Ok (mkDelimiter close escape multiline quoting).

(** The mapping of open delimiters, in order of insertion. *)
Definition delimiters := list (str * delimiter).
(** big/text.py:2221-2227 split_delimiters_default_delimiters *)
Definition default_delimiters : delimiters :=
  [ (u "(", mkDelimiter (u ")") [] true false);
    (u "[", mkDelimiter (u "]") [] true false);
    (u "{", mkDelimiter (u "}") [] true false);
    (u "'", mkDelimiter (u "'") backslash false true);
    (u """", mkDelimiter (u """") backslash false true) ].

(** A state is a dict in the code; here it is named by the delimiter it belongs to, [None]
    for the initial state, and the dict's entries are what [lookup] returns. *)
Inductive action :=
| Push (open : str) (d : delimiter) | Pop | Escape | Illegal | IllegalNewline | Flush | Flush1
| Truncate (s : str).
Fixpoint get (table : delimiters) (k : str) : option delimiter :=
  match table with [] => None | (k', d) :: t => if str_eqb k' k then Some d else get t k end.
(** big/text.py:2333-2361: the sets *)
Definition openers (table : delimiters) : list str := map fst table.
Definition closers (table : delimiters) : list str := map (fun p => d_close (snd p)) table.
Definition escapes (table : delimiters) : list str := map (fun p => d_escape (snd p)) (filter (fun p => d_quoting (snd p)) table).
Definition nested_closers (table : delimiters) : list str := map (fun p => d_close (snd p)) (filter (fun p => negb (d_quoting (snd p))) table).
Definition newlines_of (is_bytes : bool) (table : delimiters) : list str :=
  if forallb (fun p => d_multiline (snd p)) table then []
  else if is_bytes then bytes_linebreaks_without_crlf else str_linebreaks_without_crlf.
Definition delimiter_tokens (table : delimiters) : list str := openers table ++ closers table ++ escapes table.
Definition all_tokens (is_bytes : bool) (table : delimiters) : list str := delimiter_tokens table ++ newlines_of is_bytes table.
Definition shares_characters (a b : str) : bool := existsb (fun c => existsb (N.eqb c) b) a.
(** big/text.py:2449-2460: the loop over (close, escape) for one token t; [old] is the entry so far *)
Fixpoint token_loop (quoting : bool) (characters : str) (l : list str) (t : str) (old : action) : action :=
  match l with
  | [] => old
  | s :: rest =>
      if str_eqb t s then token_loop quoting characters rest t old
      else if starts_with s t then Truncate s
      else token_loop quoting characters rest t (if quoting && shares_characters t characters then Flush1 else old)
  end.
(** big/text.py:2367-2476 the dicts, and .get(token, _ACTION_FLUSH) *)
Definition push_or (table : delimiters) (t : str) (a : action) : action :=
  match get table t with Some d => Push t d | None => a end.
Definition lookup (is_bytes : bool) (table : delimiters) (state : option delimiter) (t : str) : action :=
  match state with
  | None => push_or table t (if str_in t (delimiter_tokens table) then Illegal else Flush)
  | Some d =>
      let default := if d_quoting d then Flush else if str_in t (delimiter_tokens table) then Illegal else Flush in
      let a := if str_in t (all_tokens is_bytes table)
               then token_loop (d_quoting d) (d_close d ++ d_escape d) (d_close d :: (if is_nil (d_escape d) then [] else [d_escape d])) t default
               else default in
      let a := if d_quoting d && negb (d_multiline d) && str_in t (newlines_of is_bytes table) then IllegalNewline else a in
      let a := if str_eqb t (d_close d) then Pop else a in
      let a := if negb (is_nil (d_escape d)) && str_eqb t (d_escape d) then Escape else a in
      if d_quoting d then a else push_or table t a
  end.

(** The exceptions of the generator.  [OutOfFuel] is not a Python exception: it marks a run
    cut short by the fuel of [delimiter_run], and is proved not to occur. *)
Definition OutOfFuel : exn := OtherError 0.
Section Delimiters.
  Context (is_bytes : bool) (table : delimiters) (text : str).
  (** what the for loop leaves: the end of the iteration, an exception, or a resplit *)
  Inductive outcome := Finished (buffer : list str) (escaped : str) | Raised (e : exn)
                     | Resplit (current : option delimiter) (stack : list (option delimiter)) (buffer : list str) (escaped : str) (consumed : nat).
  (** big/text.py:2559-2659: the for loop over the pairs.  [open] only appears in messages. *)
  Fixpoint delimiter_loop (pairs : list item) (current : option delimiter) (stack : list (option delimiter)) (buffer : list str)
      (escaped : str) (consumed : nat) : list triple * outcome :=
    match pairs with
    | [] => ([], Finished buffer escaped)
    | Str _ :: rest => delimiter_loop rest current stack buffer escaped consumed   (* does not occur *)
    | Two s delim :: rest =>
        if is_nil s && is_nil delim then delimiter_loop rest current stack buffer escaped consumed
        else if negb (is_nil escaped) && is_nil s then
          if length delim =? 1 then delimiter_loop rest current stack (buffer ++ [delim]) [] (consumed + 1)
          else ([], Resplit current stack (buffer ++ [firstn 1 delim]) [] (consumed + 1))
        else
          let buffer := buffer ++ [s] in
          let consumed := consumed + length s in
          if is_nil delim then ([], Finished buffer [])        (* break; then the exhausted iterator ends the loop *)
          else
            match lookup is_bytes table current delim with
            | Push o d =>
                let '(y, r) := delimiter_loop rest (Some d) (current :: stack) [] [] (consumed + length delim) in
                ((concat buffer, delim, []) :: y, r)
            | a =>
                let '(delim, a, resplit) :=
                  match a with Truncate s => (s, lookup is_bytes table current s, true) | _ => (delim, a, false) end in
                match a with
                | Pop =>
                    match stack with
                    | [] => ([(concat buffer, [], delim)], Raised IndexError)
                    | top :: stack =>
                        if resplit then ([(concat buffer, [], delim)], Resplit top stack [] [] (consumed + length delim))
                        else let '(y, r) := delimiter_loop rest top stack [] [] (consumed + length delim) in
                             ((concat buffer, [], delim) :: y, r)
                    end
                | Escape =>
                    if resplit then ([], Resplit current stack (buffer ++ [delim]) delim (consumed + length delim))
                    else delimiter_loop rest current stack (buffer ++ [delim]) delim (consumed + length delim)
                | Flush =>
                    if resplit then ([], Resplit current stack (buffer ++ [delim]) [] consumed)
                    else delimiter_loop rest current stack (buffer ++ [delim]) [] consumed
                | Flush1 => ([], Resplit current stack (buffer ++ [firstn 1 delim]) [] (consumed + 1))
                | Illegal | IllegalNewline => ([], Raised SyntaxError)
                | Push _ _ | Truncate _ => ([], Raised RuntimeError)
                end
            end
    end.
  (** big/text.py:2550-2668: the outer while loop and the end *)
  Fixpoint delimiter_run (fuel : nat) (current : option delimiter) (stack : list (option delimiter)) (buffer : list str)
      (escaped : str) (consumed : nat) : generated triple :=
    match fuel with
    | O => ([], Some OutOfFuel)
    | S f =>
        match multisplit (skipn consumed text) (Some (all_tokens is_bytes table)) AsPairs (Some (-1)%Z) false true StripFalse with
        | Err e => ([], Some e)
        | Ok pairs =>
            let '(y, r) := delimiter_loop pairs current stack buffer escaped consumed in
            match r with
            | Raised e => (y, Some e)
            | Resplit current stack buffer escaped consumed =>
                let '(y', e) := delimiter_run f current stack buffer escaped consumed in (y ++ y', e)
            | Finished buffer escaped =>
                if is_nil buffer then (y, None)
                else if negb (is_nil escaped) then (y, Some SyntaxError)
                else let s := concat buffer in if is_nil s then (y, None) else (y ++ [(s, [], [])], None)
            end
        end
    end.
End Delimiters.

(** big/text.py:2768-2780: entering the initial state *)
Fixpoint enter_state (is_bytes : bool) (table : delimiters) (state : list str) (current : option delimiter) (stack : list (option delimiter))
    : result (option delimiter * list (option delimiter)) :=
  match state with
  | [] => Ok (current, stack)
  | k :: rest => match lookup is_bytes table current k with
                 | Push _ d => enter_state is_bytes table rest (Some d) (current :: stack)
                 | _ => Err ValueError
                 end
  end.
(** big/text.py:2677-2781 split_delimiters.  [delimiters=None] is the default table. *)
Definition split_delimiters (is_bytes : bool) (s : str) (table : option delimiters) (state : list str) : result (generated triple) :=
  let table := match table with None => default_delimiters | Some t => t end in
  if is_nil table then Err ValueError
  else if str_in backslash (openers table) then Err ValueError
  else if existsb (fun k => str_in k (nested_closers table)) (openers table) then Err ValueError
  else match enter_state is_bytes table state None [] with
       | Err e => Err e
       | Ok (current, stack) => Ok (delimiter_run is_bytes table s (S (S (length s))) current stack [] [] 0)
       end.
