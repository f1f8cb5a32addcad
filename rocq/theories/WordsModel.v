(** Model of big/text.py: wrap_words, split_title_case, gently_title.  Strings are lists of
    code points; [is_bytes] selects the bytes behaviour.  Not modelled: type checks. *)
From Verif Require Export LinesModel.

(** s.isspace() *)
Definition isspace (is_bytes : bool) (s : str) : bool := negb (is_nil s) && forallb (white is_bytes) s.
Definition spaces (n : nat) : str := repeat 32%N n.
Definition sentence_ending_punctuation : list str := [u "."; u "?"; u "!"].

(** big/text.py:3756-3780, the loop of wrap_words after the first word was seen: the local
    variable [two_spaces] now holds the string of two spaces, which is true. *)
Fixpoint wrap_loop (is_bytes : bool) (margin : Z) (two_spaces : str) (words : list str) (col : Z) (lastword : str) : list str :=
  match words with
  | [] => []
  | word :: rest =>
      if isspace is_bytes word then word :: wrap_loop is_bytes margin two_spaces rest 0 word
      else
        let l := Z.of_nat (length word) in
        let '(space, len_space) :=
          if negb (is_nil two_spaces) && existsb (fun p => ends_with p lastword) sentence_ending_punctuation
          then (two_spaces, 2%Z) else (spaces 1, 1%Z) in
        let '(pre, col) :=
          if (margin <? l + len_space + col)%Z then
            if (col =? 0)%Z then ([], col) else ([[10%N]], 0%Z)
          else if (col =? 0)%Z then ([], col) else ([space], col + len_space)%Z in
        pre ++ word :: wrap_loop is_bytes margin two_spaces rest (col + l) word
  end.
(** big/text.py:3703-3784 wrap_words: the argument [two_spaces] is overwritten at the first
    word (3747, 3753) before it is ever read. *)
Definition wrap_words (is_bytes : bool) (words : list str) (margin : Z) (two_spaces : bool) : result str :=
  match words with
  | [] => Err ValueError
  | _ => Ok (concat (wrap_loop is_bytes margin (spaces 2) words 0 []))
  end.

Section Title.
  (** c.isupper() and c.islower() of one character *)
  Context (isupper islower : chr -> bool).
  (** big/text.py:1377-1466: inside which inner "for c in i" loop the generator is *)
  Inductive title_point := InLower | InUpper (multiple_uppers : bool).
  (** The loops, one character of the iterator per call.  A character that breaks out of an
      inner loop is dispatched on at the top of "while True" (1425-1456): [title_top]; [None]
      is the branch for a character that is neither upper nor lower case, and the start.
      [word] is the list of characters collected so far. *)
  Definition title_top (c : chr) : option title_point :=
    if islower c then Some InLower else if isupper c then Some (InUpper false) else None.
  Fixpoint title_loop (split_allcaps : bool) (s : str) (p : option title_point) (word : str) : list str :=
    match s with
    | [] => if is_nil word then [] else [word]                                   (* 1465-1466 *)
    | c :: rest =>
        match p with
        | None => (* 1456-1461 and the start: c is dispatched on at the top *)
            title_loop split_allcaps rest (title_top c) (word ++ [c])
        | Some InLower =>                                                         (* 1426-1438 *)
            if isupper c then word :: title_loop split_allcaps rest (title_top c) [c]
            else if islower c then title_loop split_allcaps rest (Some InLower) (word ++ [c])
            else title_loop split_allcaps rest (title_top c) (word ++ [c])
        | Some (InUpper multiple_uppers) =>                                       (* 1440-1455 *)
            if isupper c then title_loop split_allcaps rest (Some (InUpper split_allcaps)) (word ++ [c])
            else if islower c && multiple_uppers then
              removelast word :: title_loop split_allcaps rest (title_top c) ([last word 0%N] ++ [c])
            else title_loop split_allcaps rest (title_top c) (word ++ [c])
        end
    end.
  (** big/text.py:1377-1466 split_title_case *)
  Definition split_title_case (s : str) (split_allcaps : bool) : list str :=
    match s with [] => [[]] | _ => title_loop split_allcaps s None [] end.
End Title.

Section GentlyTitle.
  (** c.upper() of one character: possibly several characters *)
  Context (is_bytes : bool) (upper : chr -> str).
  (** big/text.py:1572-1576 *)
  Inductive title_state := InWord | AfterWhitespace | AfterQuote | AfterDO | AfterDOApostrophe.
  (** big/text.py:1696-1727, one iteration; [is_d_or_o] is 'DO'.__contains__ (1583), a substring test *)
  Definition gentle_step (is_apostrophe is_double_quote : chr -> bool) (state : title_state) (c : chr) : title_state * str :=
    let is_space := white is_bytes c || (c =? 40)%N in
    let quote := is_apostrophe c || is_double_quote c in
    match state with
    | InWord => (if is_space then AfterWhitespace else InWord, [c])
    | AfterWhitespace =>
        if is_space then (AfterWhitespace, [c])
        else (if quote then AfterQuote else if contains (upper c) (u "DO") then AfterDO else InWord, upper c)
    | AfterQuote => if quote then (AfterQuote, [c]) else (InWord, upper c)
    | AfterDO => (if is_apostrophe c then AfterDOApostrophe else InWord, [c])
    | AfterDOApostrophe => (InWord, upper c)
    end.
  Fixpoint gentle_loop (is_apostrophe is_double_quote : chr -> bool) (state : title_state) (s : str) : str :=
    match s with
    | [] => []
    | c :: t => let '(state, out) := gentle_step is_apostrophe is_double_quote state c in
                out ++ gentle_loop is_apostrophe is_double_quote state t
    end.
  (** big/text.py:1360-1367, 1578-1581: the default apostrophes and double quotes *)
  Definition default_apostrophes : list str := map (fun c => [c]) (if is_bytes then [39] else [39; 8216; 8217; 8218; 8219])%N.
  Definition default_double_quotes : list str :=
    map (fun c => [c]) (if is_bytes then [34] else [34; 8220; 8221; 8222; 8223; 171; 187; 8249; 8250])%N.
  (** big/text.py:1667-1692 for one argument: the membership test *)
  Definition quote_set (default : list str) (arg : option (list str)) : result (chr -> bool) :=
    match arg with
    | None => Ok (fun c => str_in [c] default)
    | Some l => if existsb is_nil l then Err ValueError else if is_nil l then Err ValueError else Ok (fun c => str_in [c] l)
    end.
  (** big/text.py:1590-1728 gently_title *)
  Definition gently_title (s : str) (apostrophes double_quotes : option (list str)) : result str :=
    match quote_set default_apostrophes apostrophes with
    | Err e => Err e
    | Ok is_apostrophe =>
        match quote_set default_double_quotes double_quotes with
        | Err e => Err e
        | Ok is_double_quote => Ok (gentle_loop is_apostrophe is_double_quote AfterWhitespace s)
        end
    end.
End GentlyTitle.
