(** Model of big/text.py: merge_columns.  Texts are lists of code points, [is_bytes] selects what rstrip() strips.
    min_width is not used by the code and left out.  Not modelled: negative widths and overflow_before / overflow_after,
    a text given as a list of lines, texts of different types, and more than sys.maxsize lines. *)
From Verif Require Export LinesModel.

(** big/text.py:4092-4102 *)
Inductive OverflowStrategy := INVALID | RAISE | INTRUDE_ALL | DELAY_ALL.
Definition newline_char : chr := 10%N.
(** line.ljust(width) *)
Definition ljust (width : nat) (line : str) : str := line ++ repeat 32%N (width - length line).

Section Merge.
  Context (is_bytes : bool) (overflow_before overflow_after : nat).
  (** overflows (the newest first), in_overflow, overflow_start, overflow_end *)
  Record overflow_state := Ov { overflows : list (nat * nat); in_overflow : bool; overflow_start : nat; overflow_end : nat }.
  (** big/text.py:4178-4187 *)
  Definition add_overflow (o : overflow_state) : overflow_state :=
    match overflows o with
    | last_overflow :: rest =>
        if overflow_start o - 1 <=? snd last_overflow
        then Ov ((fst last_overflow, overflow_end o) :: rest) false (overflow_start o) (overflow_end o)
        else Ov ((overflow_start o, overflow_end o) :: overflows o) false (overflow_start o) (overflow_end o)
    | [] => Ov [(overflow_start o, overflow_end o)] false (overflow_start o) (overflow_end o)
    end.
  (** big/text.py:4219-4240 loop 1; max_line_length and rstripped_lines are never used *)
  Fixpoint loop1 (raise_overflow_error : bool) (max_width line_number : nat) (lines : list str) (o : overflow_state) : result overflow_state :=
    match lines with
    | [] => (* big/text.py:4242-4244 *)
        Ok (if in_overflow o then add_overflow (Ov (overflows o) true (overflow_start o) (line_number - 1 + overflow_after)) else o)
    | line :: lines =>
        let line_overflowed := max_width <? length (rstrip is_bytes line) in
        if negb (in_overflow o) && line_overflowed then
          if raise_overflow_error then Err OverflowError
          else loop1 raise_overflow_error max_width (S line_number) lines (Ov (overflows o) true (line_number - overflow_before) (overflow_end o))
        else if in_overflow o && negb line_overflowed then
          loop1 raise_overflow_error max_width (S line_number) lines (add_overflow (Ov (overflows o) true (overflow_start o) (line_number - 1 + overflow_after)))
        else loop1 raise_overflow_error max_width (S line_number) lines o
    end.
  (** big/text.py:4189-4197 next_overflow: the current (overflow_start, overflow_end), None if they are sys.maxsize, and overflows *)
  Definition next_overflow (overflows : list (nat * nat)) : option (nat * nat) * list (nat * nat) :=
    match overflows with x :: rest => (Some x, rest) | [] => (None, []) end.
  (** big/text.py:4260-4269 loop 2, from next_overflow() on *)
  Fixpoint loop2 (max_width line_number : nat) (lines : list str) (current : option (nat * nat)) (overflows : list (nat * nat)) (in_overflow : bool) : list (str * bool) :=
    match lines with
    | [] => []
    | line :: lines =>
        let '(in_overflow, (current, overflows)) :=
          match current with
          | Some (_, overflow_end) => if overflow_end <? line_number then (false, next_overflow overflows) else (in_overflow, (current, overflows))
          | None => (in_overflow, (current, overflows))
          end in
        let in_overflow := match current with Some (overflow_start, _) => if overflow_start <=? line_number then true else in_overflow | None => in_overflow end in
        (if in_overflow then line else ljust max_width line, in_overflow) :: loop2 max_width (S line_number) lines current overflows in_overflow
    end.
  (** big/text.py:4199-4271: a column, as (padded_lines, empty_column) *)
  Definition pad_column (strategy : OverflowStrategy) (column : str * nat) : result (list (str * bool) * str) :=
    let '(s, max_width) := column in
    let lines := split1 (fun c => (c =? newline_char)%N) (rstrip is_bytes s) in
    rmap (fun o =>
      let overflows := match strategy with
                       | DELAY_ALL => match overflows o with [] => [] | _ => [(0, overflow_end o)] end
                       | _ => overflows o end in
      let '(current, overflows) := next_overflow (rev overflows) in
      (loop2 max_width 0 lines current overflows false, repeat 32%N max_width))
    (loop1 (match strategy with RAISE => true | _ => false end) max_width 0 lines (Ov [] false 0 0)).
  Fixpoint pad_columns (strategy : OverflowStrategy) (columns : list (str * nat)) : result (list (list (str * bool) * str)) :=
    match columns with
    | [] => Ok []
    | c :: columns => rbind (pad_column strategy c) (fun p => rmap (cons p) (pad_columns strategy columns))
    end.
  (** big/text.py:4277-4296: one row: its pieces, all_iterators_are_exhausted, the iterators afterwards *)
  Fixpoint row (columns : list (list (str * bool) * str)) : list str * bool * list (list (str * bool) * str) :=
    match columns with
    | [] => ([], true, [])
    | ([], e) :: columns => let '(r, exhausted, columns) := row columns in (e :: r, exhausted, ([], e) :: columns)
    | ((line, true) :: l, e) :: columns => ([line], false, (l, e) :: columns)
    | ((line, false) :: l, e) :: columns => let '(r, _, columns) := row columns in (line :: r, false, (l, e) :: columns)
    end.
  (** big/text.py:4276-4300: while True; fuel is the number of rows allowed *)
  Fixpoint rows (fuel : nat) (column_separator : str) (columns : list (list (str * bool) * str)) : option (list str) :=
    match fuel with
    | 0 => None
    | S fuel => let '(r, exhausted, columns) := row columns in
                if exhausted then Some [] else option_map (cons (rstrip is_bytes (join column_separator r))) (rows fuel column_separator columns)
    end.
  (** big/text.py:4105-4303 *)
  Definition merge_columns (columns : list (str * nat)) (column_separator : option str) (overflow_strategy : OverflowStrategy) : result str :=
    match overflow_strategy, columns with
    | INVALID, _ => Err AssertionError
    | _, [] => Err AssertionError
    | _, _ =>
        let sep := match column_separator with None => [32%N] | Some s => s end in
        rbind (pad_columns overflow_strategy columns) (fun columns =>
        match rows (S (list_sum (map (fun c => length (fst c)) columns))) sep columns with
        | Some lines => Ok (rstrip is_bytes (join [newline_char] lines))
        | None => Err RecursionError (* never: see MergeProof *)
        end)
    end.
End Merge.
