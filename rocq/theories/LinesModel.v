(** Model of big/text.py: LineInfo, lines and the lines modifier functions.  A string is a
    list of code points; [is_bytes] selects what is whitespace.  A lines iterator is
    represented by the list of pairs it yields and the exception that ends it, if any: no
    modifier looks at a LineInfo object again after yielding it, so passing the object by
    value is the same as mutating it.  Not modelled: type checks, extra keyword arguments,
    the attributes info.lines and info.match, the texts of exceptions. *)
From Verif Require Export DelimModel.

(** big/text.py:2786-2871 LineInfo *)
Record info := mkInfo { i_line : str; i_number : Z; i_column : Z; i_leading : str; i_trailing : str; i_end : str; i_indent : Z }.
Definition pair := (info * str)%type.

(** s[i:] and s[:i] for an int *)
Definition slice_from {A} (s : list A) (i : Z) : list A :=
  if (i <? 0)%Z then skipn (Z.to_nat (Z.of_nat (length s) + i)) s else skipn (Z.to_nat i) s.
Definition slice_to {A} (s : list A) (i : Z) : list A :=
  if (i <? 0)%Z then firstn (Z.to_nat (Z.of_nat (length s) + i)) s else firstn (Z.to_nat i) s.
(** s.endswith(w) *)
Definition ends_with (w s : str) : bool := starts_with (rev w) (rev s).
(** w in s *)
Fixpoint contains (w s : str) : bool := starts_with w s || match s with [] => false | _ :: t => contains w t end.
(** s.partition(w) for a non-empty w: the first element and the last *)
Fixpoint partition (w s : str) : str * str :=
  if starts_with w s then ([], skipn (length w) s)
  else match s with [] => ([], []) | c :: t => let '(a, b) := partition w t in (c :: a, b) end.

(** str.expandtabs / bytes.expandtabs *)
Fixpoint expandtabs_aux (tab_width pos : Z) (s : str) : str :=
  match s with
  | [] => []
  | c :: t =>
      if (c =? 9)%N then
        if (0 <? tab_width)%Z then
          let incr := (tab_width - pos mod tab_width)%Z in
          repeat 32%N (Z.to_nat incr) ++ expandtabs_aux tab_width (pos + incr) t
        else expandtabs_aux tab_width pos t
      else c :: expandtabs_aux tab_width (if ((c =? 10) || (c =? 13))%N then 0 else pos + 1)%Z t
  end.
Definition expandtabs (tab_width : Z) (s : str) : str := expandtabs_aux tab_width 0 s.

(** the second argument of clip_leading and clip_trailing *)
Inductive clip := ByStr (s : str) | ByInt (i : Z).
Definition clip_count (a : clip) : Z := match a with ByStr s => Z.of_nat (length s) | ByInt i => i end.

Section Lines.
  (** the attributes column_number and tab_width of the lines object *)
  Context (is_bytes : bool) (start_column tab_width : Z).
  (** the characters lstrip() and rstrip() strip, and \s matches *)
  Definition white (c : chr) : bool := if is_bytes then (between 9 13 c || (c =? 32))%N else is_space c.
  Fixpoint lstrip (s : str) : str := match s with c :: t => if white c then lstrip t else s | [] => [] end.
  Definition rstrip (s : str) : str := rev (lstrip (rev s)).

  (** big/text.py:2904-2913 and 2949-2958: "if you clip the entire line ..." *)
  Definition clip_all (i : info) : result pair :=
    if ends_with (i_end i) (i_line i) then
      Ok (mkInfo (i_line i) (i_number i) (i_column i - Z.of_nat (length (i_leading i)))%Z []
            (if is_nil (i_end i) then i_line i else slice_to (i_line i) (- Z.of_nat (length (i_end i)))%Z)
            (i_end i) (i_indent i), [])
    else Err AssertionError.
  (** big/text.py:2880-2925 *)
  Definition clip_leading (i : info) (line : str) (a : clip) : result pair :=
    let line' := slice_from line (clip_count a) in
    if is_nil line' then clip_all i
    else
      let s := match a with ByStr s => s | ByInt n => slice_to line n end in
      Ok (mkInfo (i_line i) (i_number i) (i_column i + Z.of_nat (length (expandtabs tab_width s)))%Z (i_leading i ++ s)
            (i_trailing i) (i_end i) (i_indent i), line').
  (** big/text.py:2927-2962 *)
  Definition clip_trailing (i : info) (line : str) (a : clip) : result pair :=
    let line' := slice_to line (- clip_count a)%Z in
    let line' := if (clip_count a =? 0)%Z then [] else line' in          (* line[:-0] is line[:0] *)
    if is_nil line' then clip_all i
    else
      let s := match a with ByStr s => s | ByInt n => slice_from line (- n)%Z end in
      Ok (mkInfo (i_line i) (i_number i) (i_column i) (i_leading i) (s ++ i_trailing i) (i_end i) (i_indent i), line').

  (** big/text.py:3083-3115 lines.__next__ for the value (line, end) *)
  Definition new_info (number : Z) (p : str * str) : pair :=
    (mkInfo (if is_nil (snd p) then fst p else fst p ++ snd p) number start_column [] [] (snd p) 0, fst p).
  Fixpoint number_lines (number : Z) (l : list (str * str)) : list pair :=
    match l with [] => [] | p :: t => new_info number p :: number_lines (number + 1) t end.
  (** what lines() iterates over: a string and separators (None: line breaks), or an
      iterable of strings, or an iterable of pairs of strings *)
  Inductive source := Text (s : str) (separators : option (list str)) | Strings (l : list str) | Pairs (l : list (str * str)).
  Definition linebreaks_of : list str := if is_bytes then bytes_linebreaks else str_linebreaks.
  (** big/text.py:2985-3115 lines *)
  Definition lines (s : source) (line_number : Z) : result (list pair) :=
    match s with
    | Text s separators =>
        let separators := match separators with None | Some [] => linebreaks_of | Some l => l end in
        match multisplit s (Some separators) AsPairs (Some (-1)%Z) false true StripFalse with
        | Err e => Err e
        | Ok l => Ok (number_lines line_number (flat_map (fun x => match x with Two a b => [(a, b)] | Str _ => [] end) l))
        end
    | Strings l => Ok (number_lines line_number (map (fun s => (s, [])) l))
    | Pairs l => Ok (number_lines line_number l)
    end.

  (** "for info, line in li: ...; yield ...": [f] gives what is yielded for one pair, if
      anything; [up] is the exception that ends [li] *)
  Fixpoint for_each (f : pair -> result (option pair)) (l : list pair) (up : option exn) : generated pair :=
    match l with
    | [] => ([], up)
    | p :: t => match f p with
                | Err e => ([], Some e)
                | Ok None => for_each f t up
                | Ok (Some q) => yield_ q (for_each f t up)
                end
    end.

  (** big/text.py:3118-3146 lines_rstrip *)
  Definition rstrip_line (separators : option (list str)) (p : pair) : result (option pair) :=
    let '(i, line) := p in
    match separators with
    | None =>
        let r := rstrip line in
        if str_eqb r line then Ok (Some p) else rmap Some (clip_trailing i line (ByInt (- Z.of_nat (length r))))
    | Some seps =>
        match multistrip line seps false true with
        | Err e => Err e
        | Ok r => if str_eqb r line then Ok (Some (i, r))
                  else rmap (fun q : pair => Some (fst q, r)) (clip_trailing i line (ByInt (- Z.of_nat (length r))))
        end
    end.
  (** big/text.py:3179-3183 and 3203-3207: "if leading: ...; if trailing: ..." *)
  Definition clip_both (i : info) (line leading trailing : str) : result (option pair) :=
    match (if is_nil leading then Ok (i, line) else clip_leading i line (ByStr leading)) with
    | Err e => Err e
    | Ok (i, line) => rmap Some (if is_nil trailing then Ok (i, line) else clip_trailing i line (ByStr trailing))
    end.
  (** big/text.py:3149-3211 lines_strip *)
  Definition strip_line (separators : option (list str)) (p : pair) : result (option pair) :=
    let '(i, line) := p in
    if is_nil line then Ok (Some p)
    else match separators with
         | Some seps =>
             match multistrip line seps true true with
             | Err e => Err e
             | Ok stripped => let '(leading, trailing) := if is_nil stripped then ([], line) else partition stripped line in
                              clip_both i line leading trailing
             end
         | None =>
             let lstripped := lstrip line in
             if is_nil lstripped then clip_both i line [] line
             else
               let rstripped := rstrip lstripped in
               clip_both i line (firstn (length line - length lstripped) line) (skipn (length rstripped) lstripped)
         end.
  Definition keep_if (f : str -> bool) (p : pair) : result (option pair) := Ok (if f (snd p) then Some p else None).
  (** big/text.py:3214-3268 lines_filter_line_comment_lines: the match function *)
  Definition comment_line (markers : list str) (line : str) : bool :=
    match markers with
    | [marker] => starts_with marker (lstrip line)
    | _ => match re_match (Seq (Star (Chr white)) (separators_re markers false)) line with Some _ => true | None => false end
    end.
  (** big/text.py:3348-3367 lines_sort; [lt] compares what key returns *)
  Definition lines_sort (lt : pair -> pair -> bool) (reverse : bool) (l : list pair) (up : option exn) : generated pair :=
    match up with
    | Some e => ([], Some e)
    | None => ((if reverse then sort_rev lt l else sort lt l), None)
    end.
  Definition by_line (a b : pair) : bool := str_ltb (snd a) (snd b).

  (** big/text.py:3370-3437 the generator of lines_strip_line_comments.  What the inner loop
      finds: a comment (with the text to clip), or the state and the last quote marks *)
  Inductive found := Comment (s : str) | NoComment (state leading_quote trailing_quote : str) | Broken.
  Definition joined3 (t : triple) : str := fst (fst t) ++ snd (fst t) ++ snd t.
  Fixpoint find_comment (markers : list str) (line : str) (segments : list triple) (state lq tq : str) : found :=
    match segments with
    | [] => NoComment state lq tq
    | (lq, segment, tq) :: rest =>
        if negb (is_nil lq) then find_comment markers line rest state lq tq
        else if negb (is_nil state) then
          if negb (is_nil tq) then find_comment markers line rest [] lq tq
          else if str_eqb segment line then find_comment markers line rest state lq tq else Broken
        else match re_split (separators_re markers true) (Some 1) segment with
             | ((_, marker) :: _, after) => Comment (marker ++ after ++ concat (map joined3 rest))
             | ([], _) => find_comment markers line rest state lq tq
             end
    end.
  Fixpoint comments_loop (markers quotes : list str) (escape : str) (multiline_quotes : list str) (state : str)
      (l : list pair) (up : option exn) : generated pair :=
    match l with
    | [] => ([], match up with Some e => Some e | None => if is_nil state then None else Some SyntaxError end)
    | (i, line) :: rest =>
        match (if is_nil quotes && is_nil multiline_quotes then Ok ([([], line, [])], None)
               else split_quoted_strings is_bytes line quotes escape multiline_quotes state) with
        | Err e => ([], Some e)
        | Ok (segments, Some e) =>
            (* the exception is raised in the loop, unless an assertion fails before *)
            match find_comment markers line segments state [] [] with Broken => ([], Some AssertionError) | _ => ([], Some e) end
        | Ok (segments, None) =>
            match find_comment markers line segments state [] [] with
            | Broken => ([], Some AssertionError)
            | Comment s => match clip_trailing i line (ByStr s) with
                           | Err e => ([], Some e)
                           | Ok q => yield_ q (comments_loop markers quotes escape multiline_quotes [] rest up)
                           end
            | NoComment state lq tq =>
                if negb (is_nil lq) && is_nil tq then
                  if str_in lq multiline_quotes then yield_ (i, line) (comments_loop markers quotes escape multiline_quotes lq rest up)
                  else ([], Some SyntaxError)
                else yield_ (i, line) (comments_loop markers quotes escape multiline_quotes state rest up)
            end
        end
    end.

  (** big/text.py:3635-3650: "we're outdenting"; [leadings] has its last element first *)
  Fixpoint dedent (column : Z) (leadings : list Z) (indent : Z) : result (list Z * Z) :=
    match leadings with
    | [] => Err IndentationError
    | l :: below => if (column <=? l)%Z then if (column <? l)%Z then Err IndentationError else Ok (leadings, indent)
                    else dedent column below (indent - 1)
    end.
  Definition set_indent (n : Z) (p : pair) : pair :=
    (mkInfo (i_line (fst p)) (i_number (fst p)) (i_column (fst p)) (i_leading (fst p)) (i_trailing (fst p)) (i_end (fst p)) n, snd p).
  (** big/text.py:3612-3656: the new leadings and indent *)
  Definition indent_step (column : Z) (leading : str) (leadings : list Z) (indent : Z) : result (list Z * Z) :=
    if (column =? start_column)%Z then if is_nil leading then Ok ([], 0%Z) else Err AssertionError
    else match leadings with
         | [] => Ok ([column], indent + 1)%Z
         | top :: below => if (top =? column)%Z then Ok (leadings, indent)
                           else if (top <? column)%Z then Ok (column :: leadings, indent + 1)%Z
                           else dedent column below (indent - 1)
         end.
  (** big/text.py:3560-3676 lines_strip_indent *)
  Fixpoint indent_loop (leadings : list Z) (indent : Z) (blank_lines : list pair) (l : list pair) (up : option exn) : generated pair :=
    match l with
    | [] => match up with Some e => ([], Some e) | None => (map (set_indent 0) blank_lines, None) end
    | (i, line) :: rest =>
        let lstripped := lstrip line in
        if is_nil lstripped then
          match clip_trailing i line (ByStr line) with
          | Err e => ([], Some e)
          | Ok q => indent_loop leadings indent (blank_lines ++ [q]) rest up
          end
        else
          match clip_leading i line (ByInt (Z.of_nat (length line) - Z.of_nat (length lstripped))) with
          | Err e => ([], Some e)
          | Ok (i, line) =>
              match indent_step (i_column i) (i_leading i) leadings indent with
              | Err e => ([], Some e)
              | Ok (leadings, indent) =>
                  let '(y, e) := indent_loop leadings indent [] rest up in
                  (map (set_indent indent) (blank_lines ++ [(i, line)]) ++ y, e)
              end
          end
    end.

  (** the lines modifier functions, with their arguments *)
  Inductive modifier :=
  | Rstrip (separators : option (list str))                              (* lines_rstrip *)
  | Strip (separators : option (list str))                               (* lines_strip *)
  | FilterCommentLines (markers : list str)                              (* lines_filter_line_comment_lines *)
  | Containing (s : str) (invert : bool)                                 (* lines_containing, 3271-3290 *)
  | Grep (search : str -> bool) (invert : bool)                          (* lines_grep, 3293-3345: whether search(line) finds a match *)
  | Sort (key_lt : option (pair -> pair -> bool)) (reverse : bool)       (* lines_sort *)
  | StripComments (markers quotes : list str) (escape : str) (multiline_quotes : list str)   (* lines_strip_line_comments *)
  | ConvertTabs                                                          (* lines_convert_tabs_to_spaces, 3548-3557 *)
  | StripIndent                                                          (* lines_strip_indent *)
  | FilterEmpty.                                                         (* lines_filter_empty_lines, 3679-3699 *)

  (** Calling a modifier on an iterator: an immediate exception, or a new iterator. *)
  Definition modify (m : modifier) (li : generated pair) : result (generated pair) :=
    let '(l, up) := li in
    match m with
    | Rstrip separators => Ok (for_each (rstrip_line separators) l up)
    | Strip separators => Ok (for_each (strip_line separators) l up)
    | FilterCommentLines markers => if is_nil markers then Err ValueError
                                    else Ok (for_each (keep_if (fun line => negb (comment_line markers line))) l up)
    | Containing s invert => Ok (for_each (keep_if (fun line => if invert then negb (contains s line) else contains s line)) l up)
    | Grep search invert => Ok (for_each (keep_if (fun line => if invert then negb (search line) else search line)) l up)
    | Sort key_lt reverse => Ok (lines_sort (match key_lt with None => by_line | Some lt => lt end) reverse l up)
    | StripComments markers quotes escape multiline_quotes =>
        if is_nil markers then Err ValueError
        else match (if is_nil quotes && is_nil multiline_quotes then Ok ([], None)
                    else split_quoted_strings is_bytes [120%N] quotes escape multiline_quotes []) with
             | Err e => Err e
             | Ok _ => Ok (comments_loop markers quotes escape multiline_quotes [] l up)
             end
    | ConvertTabs => Ok (for_each (fun p => Ok (Some (fst p, expandtabs tab_width (snd p)))) l up)
    | StripIndent => Ok (indent_loop [] 0 [] l up)
    | FilterEmpty => Ok (for_each (keep_if (fun line => negb (is_nil line))) l up)
    end.
  Fixpoint pipeline (ms : list modifier) (li : generated pair) : result (generated pair) :=
    match ms with
    | [] => Ok li
    | m :: t => match modify m li with Err e => Err e | Ok li => pipeline t li end
    end.
  (** lines(s, separators, line_number=..., ...) followed by the modifiers *)
  Definition process (s : source) (line_number : Z) (ms : list modifier) : result (generated pair) :=
    match lines s line_number with Err e => Err e | Ok l => pipeline ms (l, None) end.
End Lines.
