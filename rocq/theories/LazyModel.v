(** The lines modifiers of big/text.py as what they are: generators that are asked for one line at a time, each asking the one below it.
    What a modifier makes of all lines is in LinesModel.v; here is when it reads and when it yields.
    [source k] is what the k-th next() of the iterator given to the first modifier does. *)
From Verif Require Export LinesModel.

Section Lazy.
  Context (is_bytes : bool) (start_column tab_width : Z).

  (** what next() does *)
  Inductive event := Yield (p : pair) | Stop | Raise (e : exn).
  (** the local variables of a generator that live from one line to the next *)
  Inductive memory := Nothing | Collected (l : list pair) | InQuote (state : str) | Indents (leadings : list Z) (indent : Z) (blank_lines : list pair).
  Definition start (m : modifier) : memory :=
    match m with Sort _ _ => Collected [] | StripComments _ _ _ _ => InQuote [] | StripIndent => Indents [] 0 [] | _ => Nothing end.
  Definition at_most_one (s : memory) (r : result (option pair)) : result (list pair * memory) :=
    match r with Err e => Err e | Ok None => Ok ([], s) | Ok (Some p) => Ok ([p], s) end.
  (** The body of the loop over li, for one line: what it yields, and the variables after it (big/text.py:3136-3145, 3170-3211, 3221-3226, 3281-3290,
      3294-3306, 3361, 3376-3429, 3556-3557, 3597-3669, 3694-3697).  An exception ends the generator; nothing is yielded before it in that round. *)
  Definition body (m : modifier) (s : memory) (p : pair) : result (list pair * memory) :=
    match m, s with
    | Rstrip separators, _ => at_most_one s (rstrip_line is_bytes separators p)
    | Strip separators, _ => at_most_one s (strip_line is_bytes tab_width separators p)
    | FilterCommentLines markers, _ => at_most_one s (keep_if (fun line => negb (comment_line is_bytes markers line)) p)
    | Containing t invert, _ => at_most_one s (keep_if (fun line => if invert then negb (contains t line) else contains t line) p)
    | Grep search invert, _ => at_most_one s (keep_if (fun line => if invert then negb (search line) else search line) p)
    | ConvertTabs, _ => Ok ([(fst p, expandtabs tab_width (snd p))], s)
    | FilterEmpty, _ => at_most_one s (keep_if (fun line => negb (is_nil line)) p)
    | Sort _ _, Collected l => Ok ([], Collected (l ++ [p]))
    | StripComments markers quotes escape multiline_quotes, InQuote state =>
        let '(i, line) := p in
        match (if is_nil quotes && is_nil multiline_quotes then Ok ([([], line, [])], None)
               else split_quoted_strings is_bytes line quotes escape multiline_quotes state) with
        | Err e => Err e
        | Ok (segments, raised) =>
            match find_comment markers line segments state [] [], raised with
            | Broken, _ => Err AssertionError
            | _, Some e => Err e
            | Comment t, None => rmap (fun q => ([q], InQuote [])) (clip_trailing i line (ByStr t))
            | NoComment state lq tq, None =>
                if negb (is_nil lq) && is_nil tq
                then if str_in lq multiline_quotes then Ok ([(i, line)], InQuote lq) else Err SyntaxError
                else Ok ([(i, line)], InQuote state)
            end
        end
    | StripIndent, Indents leadings indent blank_lines =>
        let '(i, line) := p in
        let lstripped := lstrip is_bytes line in
        if is_nil lstripped
        then rmap (fun q => ([], Indents leadings indent (blank_lines ++ [q]))) (clip_trailing i line (ByStr line))
        else match clip_leading tab_width i line (ByInt (Z.of_nat (length line) - Z.of_nat (length lstripped))) with
             | Err e => Err e
             | Ok (i, line) =>
                 rmap (fun '(leadings, indent) => (map (set_indent indent) (blank_lines ++ [(i, line)]), Indents leadings indent []))
                   (indent_step start_column (i_column i) (i_leading i) leadings indent)
             end
    | _, _ => Err (OtherError 0)      (* does not occur *)
    end.
  (** the code after the loop: big/text.py:3362-3367, 3431-3435, 3671-3676 *)
  Definition ending (m : modifier) (s : memory) : list pair * option exn :=
    match m, s with
    | Sort key_lt reverse, Collected l => let lt := match key_lt with None => by_line | Some lt => lt end in (if reverse then sort_rev lt l else sort lt l, None)
    | StripComments _ _ _ _, InQuote state => ([], if is_nil state then None else Some SyntaxError)
    | StripIndent, Indents _ _ blank_lines => (map (set_indent 0) blank_lines, None)
    | _, _ => ([], None)
    end.

  (** A generator object: its variables; what it is about to yield before it reads on; and, once its loop is over, how it ends. *)
  Record gen := Gen { g_modifier : modifier; g_memory : memory; g_queue : list pair; g_over : option (option exn) }.
  (** Calling a modifier: an exception, or a new generator that has not read anything (as [modify] in LinesModel.v). *)
  Definition call (m : modifier) : result gen :=
    let g := Ok (Gen m (start m) [] None) in
    match m with
    | FilterCommentLines markers => if is_nil markers then Err ValueError else g
    | StripComments markers quotes escape multiline_quotes =>
        if is_nil markers then Err ValueError
        else if is_nil quotes && is_nil multiline_quotes then g
        else match split_quoted_strings is_bytes [120%N] quotes escape multiline_quotes [] with Err e => Err e | Ok _ => g end
    | _ => g
    end.
  (** calling the modifiers ms one after the other, on what the stack of generators [gs] gives; the last one called is the first in the stack *)
  Fixpoint calls (ms : list modifier) (gs : list gen) : result (list gen) :=
    match ms with [] => Ok gs | m :: ms => match call m with Err e => Err e | Ok g => calls ms (g :: gs) end end.

  Section Source.
    Context (source : nat -> event).
    (** next() on the stack of generators: what it does, the generators after it, and how often the source has been read.
        It may read the source without end (a filter that finds nothing); so at most [fuel] rounds are made, None if that is not enough.
        A generator that has ended, by an exception or not, raises StopIteration ever after and reads nothing. *)
    Fixpoint next (fuel : nat) (gs : list gen) (k : nat) : option (event * list gen * nat) :=
      match fuel with
      | O => None
      | S fuel =>
          match gs with
          | [] => Some (source k, [], S k)
          | Gen m s queue over :: below =>
              match queue, over with
              | p :: queue, _ => Some (Yield p, Gen m s queue over :: below, k)
              | [], Some (Some e) => Some (Raise e, Gen m s [] (Some None) :: below, k)
              | [], Some None => Some (Stop, gs, k)
              | [], None =>
                  match next fuel below k with
                  | None => None
                  | Some (Raise e, below, k) => Some (Raise e, Gen m s [] (Some None) :: below, k)
                  | Some (Stop, below, k) => let (ys, e) := ending m s in next fuel (Gen m s ys (Some e) :: below) k
                  | Some (Yield p, below, k) =>
                      match body m s p with
                      | Err e => Some (Raise e, Gen m s [] (Some None) :: below, k)
                      | Ok (ys, s) => next fuel (Gen m s ys None :: below) k
                      end
                  end
              end
          end
      end.
  End Source.
End Lazy.
