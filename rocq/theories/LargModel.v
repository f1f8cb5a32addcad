(** Model of what LineInfo, lines, lines_grep, lines_filter_line_comment_lines and lines_strip_line_comments of big/text.py do
    with arguments of any type.  What is done with the characters is in LinesModel.v.  Not modelled: objects that define
    + or [] themselves; keyword arguments of lines() (they overwrite its attributes); the texts of exceptions. *)
From Verif Require Export LinesModel DargModel.

(** Objects: those of TypedModel.v, and the ints (bools are the ints 0 and 1), re.Pattern, re.Match and lines objects, with their identity. *)
Inductive pyval := PObj (o : obj) | PInt (z : Z) | PPattern (n : nat) | PMatch (n : nat) | PLines (n : nat).
Definition empty_text (k : kind) : obj := OText k None [].
(** the attributes of an object: the first entry for a name counts *)
Definition attrs := list (str * pyval).
Fixpoint get (d : attrs) (name : str) : option pyval :=
  match d with [] => None | (n, v) :: d => if str_eqb n name then Some v else get d name end.
Definition set (d : attrs) (name : str) (v : pyval) : attrs := (name, v) :: d.

Section Classes.
  (** [subclass d d']: d is d' or a subclass of it *)
  Context (subclass : nat -> nat -> bool).

  (** isinstance(v, type(line)), for a line of type k and class c *)
  Definition isinstance_of (k : kind) (c : option nat) (v : pyval) : bool :=
    match v with
    | PObj (OText k' c' _) => kind_eqb k k' && match c, c' with None, _ => true | Some d, Some d' => subclass d' d | Some _, None => false end
    | _ => false
    end.
  Definition is_int (v : pyval) : bool := match v with PInt _ => true | _ => false end.
  (** big/text.py:2847-2860 leading, trailing and end *)
  Definition or_empty (k : kind) (c : option nat) (v : pyval) : result pyval :=
    match v with PObj ONone => Ok (PObj (empty_text k)) | _ => if isinstance_of k c v then Ok v else Err TypeError end.
  (** big/text.py:2826-2875 LineInfo.__init__ *)
  Definition LineInfo_py (lines line line_number column_number leading trailing end_ indent match_ : pyval) (kwargs : attrs) : result attrs :=
    match line with
    | PObj (OText k c v) =>
        if negb (is_int line_number) then Err TypeError
        else if negb (is_int column_number) then Err TypeError
        else if negb (is_int indent) then Err TypeError
        else
          rbind (or_empty k c leading) (fun leading =>
          rbind (or_empty k c trailing) (fun trailing =>
          rbind (or_empty k c end_) (fun end_ =>
          match match_ with
          | PObj ONone | PPattern _ =>
              Ok (kwargs ++ [(u "lines", lines); (u "line", line); (u "line_number", line_number); (u "column_number", column_number);
                             (u "leading", leading); (u "trailing", trailing); (u "end", end_); (u "indent", indent); (u "match", match_);
                             (u "_is_bytes", PInt (if kind_eqb k KBytes then 1 else 0)); (u "_empty", PObj (empty_text k))])
          | _ => Err TypeError
          end)))
    | _ => Err TypeError
    end.

  (** What an iterable yields: a tuple or a list, or any other object (so [Obj (OSeq l)] is a collection that is neither). *)
  Inductive value := Obj (o : obj) | Tuple (l : list obj).
  Definition iterate_value (v : value) : result (list obj) := match v with Obj o => iterate o | Tuple l => Ok l end.
  Definition truth_value (v : value) : bool := match v with Obj o => truth o | Tuple l => negb (is_nil l) end.
  (** line, end = value *)
  Definition unpack (v : value) : result (obj * obj) :=
    rbind (iterate_value v) (fun l => match l with [a; b] => Ok (a, b) | _ => Err ValueError end).
  (** line + end.  (Other objects can be added, too, lists for example; then LineInfo raises the TypeError.) *)
  Definition add (a b : obj) : result obj :=
    match a, b with OText k _ v, OText k' _ w => if kind_eqb k k' then Ok (OText k None (v ++ w)) else Err TypeError | _, _ => Err TypeError end.

  (** self.is_pairs: None, true, or the empty string to use as end *)
  Inductive pairs_flag := Unknown | IsPairs | NotPairs (k : kind).
  (** a lines object: what is left of the iterator, and the attributes is_pairs, line_number and column_number *)
  Record lines_obj := mkLines { l_rest : list value; l_pairs : pairs_flag; l_number : Z; l_column : Z }.
  (** s: a str or bytes, a tuple or a list, or another object *)
  Definition pairs_of (l : list oitem) : list value := flat_map (fun i => match i with OTwo a b => [Tuple [a; b]] | OOne _ => [] end) l.
  (** what an iterable s yields *)
  Inductive source_py := Given (o : obj) | Yields (l : list value).
  (** big/text.py:3042-3075 lines.__init__ *)
  Definition lines_py (s : source_py) (separators : obj) (line_number column_number tab_width : pyval) : result lines_obj :=
    match line_number, column_number, tab_width with
    | PInt line_number, PInt column_number, PInt _ =>
        match s with
        | Given (OText k c v) =>
            let separators := if truth separators then separators else OSeq (map (OText k None) (linebreaks_of (is_bytes_kind k))) in
            rmap (fun l => mkLines (pairs_of l) IsPairs line_number column_number)
              (multisplit_py k c v separators AsPairs (Some (-1)%Z) false true StripFalse)
        | Given o => if is_none separators then rmap (fun l => mkLines (map Obj l) Unknown line_number column_number) (iterate o) else Err ValueError
        | Yields l => if is_none separators then Ok (mkLines l Unknown line_number column_number) else Err ValueError
        end
    | _, _, _ => Err TypeError
    end.

  Inductive next_result := Stop | Raises (e : exn) | Next (info : attrs) (line : obj).
  (** big/text.py:3083-3115 lines.__next__; [self] is the lines object itself.  The first value decides; is_pairs is set even if then an exception is raised. *)
  Definition next_line (self : pyval) (l : lines_obj) : next_result * lines_obj :=
    match l_rest l with
    | [] => (Stop, l)
    | v :: rest =>
        let '(pairs, r) :=
          match l_pairs l with
          | IsPairs => (IsPairs, unpack v)
          | NotPairs k => (NotPairs k, match v with Obj o => Ok (o, empty_text k) | Tuple t => Ok (OSeq t, empty_text k) end)
          | Unknown =>
              match v with
              | Tuple t => (IsPairs, if length t =? 2 then unpack v else Err ValueError)
              | Obj o => let k := match o with OText KBytes _ _ => KBytes | _ => KStr end in (NotPairs k, Ok (o, empty_text k))
              end
          end in
        let r := rbind r (fun '(line, end_) =>
                 rbind (match pairs with IsPairs => if truth end_ then add line end_ else Ok line | _ => Ok line end) (fun original_line =>
                 rmap (fun info => (info, line))
                   (LineInfo_py self (PObj original_line) (PInt (l_number l)) (PInt (l_column l)) (PObj ONone) (PObj ONone) (PObj end_) (PInt 0) (PObj ONone) []))) in
        match r with
        | Err e => (Raises e, mkLines rest pairs (l_number l) (l_column l))
        | Ok (info, line) => (Next info line, mkLines rest pairs (l_number l + 1) (l_column l))
        end
    end.
  (** next() called until StopIteration, going on after other exceptions *)
  Fixpoint next_all (self : pyval) (fuel : nat) (l : lines_obj) : list next_result :=
    match fuel with
    | O => []
    | S fuel => match next_line self l with (Stop, _) => [] | (r, l) => r :: next_all self fuel l end
    end.
  Definition iterate_lines (self : pyval) (l : lines_obj) : list next_result := next_all self (S (length (l_rest l))) l.

  (** big/text.py:2980-2981 LineInfo.__eq__; [same] is Python's == of the attributes.  An object is its class and its attributes. *)
  Definition dict_eq (same : pyval -> pyval -> bool) (a b : attrs) : bool :=
    forallb (fun n => match get a n, get b n with Some x, Some y => same x y | None, None => true | _, _ => false end) (map fst a ++ map fst b).
  Definition info_eq_method (same : pyval -> pyval -> bool) (self other : nat * attrs) : bool :=
    subclass (fst other) (fst self) && dict_eq same (snd other) (snd self).
  (** a == b: if the class of b is a proper subclass of that of a, Python calls b.__eq__(a) *)
  Definition info_eq (same : pyval -> pyval -> bool) (a b : nat * attrs) : bool :=
    if subclass (fst b) (fst a) && negb (fst a =? fst b) then info_eq_method same b a else info_eq_method same a b.
End Classes.

(** big/text.py:3293-3345 lines_grep: [search] is pattern.search for a pattern of type k; it gives the re.Match object.  [identifier] is str.isidentifier. *)
Fixpoint grep_loop (k : kind) (search : str -> option nat) (name : str) (invert : bool) (l : list (attrs * obj)) (up : option exn) : generated (attrs * obj) :=
  match l with
  | [] => ([], up)
  | (info, OText k' c v) :: l =>
      if kind_eqb k k' then
        match search v with
        | Some m => if invert then grep_loop k search name invert l up
                    else yield_ (set info name (PMatch m), OText k' c v) (grep_loop k search name invert l up)
        | None => if invert then yield_ (set info name (PObj ONone), OText k' c v) (grep_loop k search name invert l up)
                  else grep_loop k search name invert l up
        end
      else ([], Some TypeError)
  | _ :: l => ([], Some TypeError)
  end.
Definition lines_grep_py (identifier : str -> bool) (k : kind) (search : str -> option nat) (name : str) (invert : bool) (l : list (attrs * obj)) (up : option exn)
    : result (generated (attrs * obj)) :=
  if identifier name then Ok (grep_loop k search name invert l up) else Err ValueError.

Section Markers.
  (** o[0] for a collection that is neither a tuple nor a list: TypeError for a set, for example *)
  Context (subscript : list obj -> result obj) (same : obj -> obj -> bool).
  Definition first_of (v : value) : result obj :=
    match v with
    | Tuple (x :: _) => Ok x
    | Tuple [] => Err IndexError
    | Obj (OText KStr _ (c :: _)) => Ok (OText KStr None [c])
    | Obj (OText KBytes _ (_ :: _)) => Ok an_int
    | Obj (OText _ _ []) => Err IndexError
    | Obj (OSeq l) => subscript l
    | Obj _ => Err TypeError
    end.
  Definition is_bytes_obj (o : obj) : bool := match o with OText KBytes _ _ => true | _ => false end.
  Definition is_bytes_value (v : value) : bool := match v with Obj o => is_bytes_obj o | Tuple _ => false end.
  (** big/text.py:67-74 _iterate_over_bytes *)
  Definition iterate_over_bytes (v : value) : result (list obj) :=
    match v with Obj (OText KBytes _ s) => Ok (map (fun c => OText KBytes None [c]) s) | _ => iterate_value v end.
  (** big/text.py:825-852 _separators_to_re: the markers, if all are of the type k.  (Collections among the markers can raise AttributeError instead.) *)
  Definition markers_of (k : kind) (l : list obj) : result (list str) := check_types k l.

  (** big/text.py:3244-3268 lines_filter_line_comment_lines: the match function, None if it is applied to a line of the wrong type.  With one marker
      nothing is checked before it is used. *)
  Definition filter_comments_py (markers : value) : result (kind -> str -> option bool) :=
    if negb (truth_value markers) then Err ValueError
    else
      rbind (if is_bytes_value markers then Ok true else rmap is_bytes_obj (first_of markers)) (fun is_bytes =>
      rbind (if is_bytes then iterate_over_bytes markers else iterate_value markers) (fun l =>
      match l with
      | [OText k _ v] => Ok (fun k' line => if kind_eqb k k' then Some (comment_line (is_bytes_kind k) [v] line) else None)
      | [_] => Ok (fun _ _ => None)
      | _ => let k := if is_bytes then KBytes else KStr in
             rmap (fun markers k' line => if kind_eqb k k' then Some (comment_line (is_bytes_kind k) markers line) else None) (markers_of k l)
      end)).

  (** big/text.py:3519-3535: quotes and multiline_quotes (str, bytes, tuples or lists); the result is the type they are checked for *)
  Definition of_value (v : value) : obj := match v with Obj o => o | Tuple l => OSeq l end.
  Definition check_quotes (quotes : value) (escape : obj) (multiline_quotes : value) : result (option kind) :=
    if truth_value quotes || truth_value multiline_quotes then
      let not_empty := if truth_value quotes then quotes else multiline_quotes in
      rbind (if is_bytes_value not_empty then Ok KBytes else rmap (fun o => if is_bytes_obj o then KBytes else KStr) (first_of not_empty)) (fun k =>
      rmap (fun _ => Some k) (split_quoted_strings_py same k [120%N] (of_value quotes) escape (of_value multiline_quotes) ONone))
    else Ok None.
  (** big/text.py:3501-3542 lines_strip_line_comments: the type and the texts of the markers, and the type of the quotes *)
  Definition strip_comments_py (markers quotes : value) (escape : obj) (multiline_quotes : value) : result (kind * list str * option kind) :=
    if negb (truth_value markers) then Err ValueError
    else
      rbind (if is_bytes_value markers then Ok KBytes
             else rbind (first_of markers) (fun o => match o with OText k _ _ => Ok k | _ => Err ValueError end)) (fun k =>
      rbind (check_quotes quotes escape multiline_quotes) (fun q =>
      rbind (iterate_over_bytes markers) (fun l => rmap (fun m => (k, m, q)) (markers_of k l)))).
End Markers.
