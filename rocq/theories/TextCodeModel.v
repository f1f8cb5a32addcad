(** Model of big/text.py: _column_wrapper_splitter and split_text_with_code.  A string is a list of
    code points; [is_bytes] selects what is whitespace.  Not modelled: negative tab_width and code_indent; the
    StateManager is represented by the name of the current state method. *)
From Verif Require Export LinesModel.

Inductive kind := Code_paragraph | Text_paragraph.
(** state_text_line_start and state_code_line_start call the next state at once and are never current between two calls. *)
Inductive state_method := Paragraph_start | Line_start | In_text_line | In_code_line.
(** self.words, self.code, self.previous_paragraph, self.col, self.state *)
Record cws := Cws { c_words : list str; c_code : list str; c_prev : option kind; c_col : nat; c_state : state_method }.
Definition newline_string : str := [10%N].
Definition paragraph_string : str := [10%N; 10%N].
Definition is_newline (w : str) : bool := str_eqb w newline_string.

(** big/text.py:3829-3839 emit, line_break, paragraph_break *)
Definition emit (c : cws) (w : str) : cws := Cws (c_words c ++ [w]) (c_code c) (c_prev c) (c_col c) (c_state c).
Definition line_break (c : cws) : cws := emit c newline_string.
Definition paragraph_break (c : cws) : cws := emit c paragraph_string.
Definition set_state (c : cws) (s : state_method) : cws := Cws (c_words c) (c_code c) (c_prev c) (c_col c) s.
Definition set_prev (c : cws) (p : option kind) : cws := Cws (c_words c) (c_code c) p (c_col c) (c_state c).
Definition set_code (c : cws) (code : list str) : cws := Cws (c_words c) code (c_prev c) (c_col c) (c_state c).
Definition is_code (o : option kind) : bool := match o with Some Code_paragraph => true | _ => false end.
Definition is_text (o : option kind) : bool := match o with Some Text_paragraph => true | _ => false end.

Section Splitter.
  Context (is_bytes : bool) (tab_width : nat) (allow_code : bool) (code_indent : nat) (convert_tabs_to_spaces : bool).
  (** big/text.py:3959-3968: the first branch of state_line_start, word is a newline *)
  Definition line_start_newline (c : cws) : cws :=
    if is_code (c_prev c) then set_code c (c_code c ++ [newline_string]) else set_state c Paragraph_start.
  (** big/text.py:4006-4010 *)
  Definition state_in_text_line (c : cws) (leading word : str) : cws :=
    if is_newline word then set_state c Line_start else emit c word.
  (** big/text.py:4001-4004 *)
  Definition state_text_line_start (c : cws) (leading word : str) : cws :=
    state_in_text_line (set_state (set_prev c (Some Text_paragraph)) In_text_line) leading word.
  (** big/text.py:4032-4043: the whitespace before a word of a code line; what is appended to self.code, and the column *)
  Fixpoint code_leading (leading : str) (col : nat) : result (list str * nat) :=
    match leading with
    | [] => Ok ([], col)
    | c :: leading =>
        if (c =? 9)%N then
          if tab_width =? 0 then Err (OtherError 0) (* ZeroDivisionError *)
          else let delta := tab_width - col mod tab_width in
               rmap (fun '(l, col) => ((if convert_tabs_to_spaces then repeat 32%N delta else [c]) :: l, col)) (code_leading leading (col + delta))
        else if (c =? 32)%N then rmap (fun '(l, col) => ([c] :: l, col)) (code_leading leading (col + 1))
        else Err RuntimeError
    end.
  (** big/text.py:4018-4045 *)
  Definition state_in_code_line (c : cws) (leading word : str) : result cws :=
    if is_newline word then
      Ok (line_start_newline (set_state (set_code (emit c (concat (c_code c))) []) Line_start))
    else rmap (fun '(l, col) => Cws (c_words c) (c_code c ++ l ++ [word]) (c_prev c) (col + length word) (c_state c)) (code_leading leading (c_col c)).
  (** big/text.py:4012-4016 *)
  Definition state_code_line_start (c : cws) (leading word : str) : result cws :=
    state_in_code_line (Cws (c_words c) (c_code c) (Some Code_paragraph) 0 In_code_line) leading word.
  (** big/text.py:3972-3980: the column of the first word *)
  Fixpoint leading_column (leading : str) (col : nat) : result nat :=
    match leading with
    | [] => Ok col
    | c :: leading =>
        if (c =? 9)%N then if tab_width =? 0 then Err (OtherError 0) else leading_column leading (col + tab_width - col mod tab_width)
        else if (c =? 32)%N then leading_column leading (col + 1)
        else Err RuntimeError
    end.
  (** big/text.py:3996-3999 *)
  Definition start_text_line (c : cws) (leading word : str) : cws :=
    state_text_line_start (if is_code (c_prev c) then paragraph_break c else c) leading word.
  (** big/text.py:3958-3999 *)
  Definition state_line_start (c : cws) (leading word : str) : result cws :=
    if is_newline word then Ok (line_start_newline c)
    else if allow_code then
      rbind (leading_column leading 0) (fun col =>
        if code_indent <=? col then
          if is_text (c_prev c) then
            match c_code c with
            | [] => state_code_line_start (paragraph_break c) leading word
            | _ => Err AssertionError
            end
          else state_code_line_start (set_code (fold_left (fun c _ => line_break c) (c_code c) c) []) leading word
        else Ok (start_text_line c leading word))
    else Ok (start_text_line c leading word).
  (** big/text.py:3942-3954 *)
  Definition state_paragraph_start (c : cws) (leading word : str) : result cws :=
    if is_newline word then Ok c
    else
      let c := match c_prev c with Some _ => set_prev (paragraph_break c) None | None => c end in
      state_line_start (set_state c Line_start) leading word.
  (** self.state(leading, word) *)
  Definition state (c : cws) (leading word : str) : result cws :=
    match c_state c with
    | Paragraph_start => state_paragraph_start c leading word
    | Line_start => state_line_start c leading word
    | In_text_line => Ok (state_in_text_line c leading word)
    | In_code_line => state_in_code_line c leading word
    end.

  (** self.leading, self.word, and the rest *)
  Definition writer := (str * str * cws)%type.
  (** big/text.py:3841-3932 *)
  Definition write (w : writer) (c : chr) : result writer :=
    let '(leading, word, s) := w in
    if negb (white is_bytes c) then Ok (leading, word ++ [c], s)
    else
      let newline := (c =? 10)%N in
      match word, newline with
      | [], false => Ok (leading ++ [c], [], s)
      | [], true => rmap (fun s => ([], [], s)) (state s leading [c])
      | _ :: _, false => rmap (fun s => ([c], [], s)) (state s leading word)
      | _ :: _, true => rmap (fun s => ([], [], s)) (rbind (state s leading word) (fun s => state s [] newline_string))
      end.
  Fixpoint write_all (w : writer) (s : str) : result writer :=
    match s with [] => Ok w | c :: s => rbind (write w c) (fun w => write_all w s) end.
  (** big/text.py:3934-3940 *)
  Definition close (w : writer) : result cws :=
    let '(leading, word, s) := w in match word with [] => Ok s | _ => state s leading word end.
  (** big/text.py:4050-4088 *)
  Definition split_text_with_code (s : str) : result (list str) :=
    rbind (write_all ([], [], Cws [] [] None 0 Paragraph_start) s) (fun w =>
    rmap (fun c => match c_words c with [] => [[]] | words => words end) (close w)).
End Splitter.
