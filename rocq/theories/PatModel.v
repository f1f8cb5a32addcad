(** The pattern strings of big/text.py and big/version.py, and how Python's re reads them.
    [compile] is a model of the part of re.compile (Lib/re/_parser.py, sre_parse.py before 3.11) that these patterns use: literals, \s and escaped
    punctuation, character sets, groups (capturing, named, and (?: )), |, * + ?, $, ^ as the first character, and re.VERBOSE.
    It is [None] for a pattern that is wrong or that uses anything else. *)
From Verif Require Export Regex SplitModel VersionModel.

Section Compile.
  (** [same c d]: the pattern character c matches d (this depends on re.IGNORECASE); [space d]: \s matches d; [verbose]: re.VERBOSE *)
  Context (same : chr -> chr -> bool) (space : chr -> bool) (verbose : bool).

  Inductive sitem := SChr (c : chr) | SRange (lo hi : chr).
  Fixpoint chars_from (n : nat) (lo : chr) : list chr := match n with O => [] | S n => lo :: chars_from n (lo + 1)%N end.
  Definition sitem_matches (d : chr) (i : sitem) : bool :=
    match i with
    | SChr c => same c d
    | SRange lo hi => existsb (fun c => same c d) (chars_from (N.to_nat (hi + 1 - lo)) lo)
    end.

  Inductive mode :=
  | Normal | Escape | Open | OpenQ | OpenP | Name (n : str) | Comment
  | InSet (items : list sitem) (pending : option chr) (dash escape : bool).
  (** a group that is still open: its number, the alternatives before, the items of this alternative (last first), and whether the last
      item is a repetition *)
  Record frame := mkF { f_group : option nat; f_alts : list re; f_seq : list re; f_rep : bool }.
  Record pstate := mkP { p_mode : mode; p_stack : list frame; p_cur : frame; p_next : nat; p_names : list (str * nat) }.

  Definition seq_of (items : list re) : re := fold_right Seq Eps items.
  Definition alt_of (f : frame) : re :=
    match rev (seq_of (rev (f_seq f)) :: f_alts f) with [] => Eps | r :: t => fold_left Alt t r end.
  Definition add_item (f : frame) (r : re) : frame := mkF (f_group f) (f_alts f) (r :: f_seq f) false.
  Definition with_mode (p : pstate) (m : mode) : pstate := mkP m (p_stack p) (p_cur p) (p_next p) (p_names p).
  Definition put (p : pstate) (r : re) : pstate := mkP Normal (p_stack p) (add_item (p_cur p) r) (p_next p) (p_names p).
  Definition open_group (p : pstate) (capture : bool) (name : option str) : pstate :=
    mkP Normal (p_cur p :: p_stack p) (mkF (if capture then Some (p_next p) else None) [] [] false)
        (if capture then S (p_next p) else p_next p)
        (match name with Some n => (n, p_next p) :: p_names p | None => p_names p end).
  Definition repeat_last (p : pstate) (f : re -> re) : option pstate :=
    match f_seq (p_cur p) with
    | r :: t => if f_rep (p_cur p) then None                                     (* "multiple repeat", or ?? *? +? *)
                else Some (mkP Normal (p_stack p) (mkF (f_group (p_cur p)) (f_alts (p_cur p)) (f r :: t) true) (p_next p) (p_names p))
    | [] => None                                                                 (* "nothing to repeat" *)
    end.
  Definition is_start (p : pstate) : bool :=
    match p_stack p, f_alts (p_cur p), f_seq (p_cur p) with [], [], [] => true | _, _, _ => false end.
  Definition ascii_alnum (c : chr) : bool := (between 48 57 c || between 65 90 c || between 97 122 c)%N.
  Definition ascii_space (c : chr) : bool := (between 9 13 c || (c =? 32))%N.   (* WHITESPACE of _parser.py *)

  (** _parser.py _parse, for a character outside sets, escapes and group headers *)
  Definition normal (p : pstate) (c : chr) : option pstate :=
    (if verbose && ascii_space c then Some p
     else if verbose && (c =? 35) then Some (with_mode p Comment)                 (* # *)
     else if c =? 92 then Some (with_mode p Escape)                               (* \ *)
     else if c =? 40 then Some (with_mode p Open)                                 (* ( *)
     else if c =? 41 then                                                         (* ) *)
       match p_stack p with
       | [] => None
       | f :: rest =>
           let r := alt_of (p_cur p) in
           Some (mkP Normal rest (add_item f (match f_group (p_cur p) with Some i => Grp i r | None => r end)) (p_next p) (p_names p))
       end
     else if c =? 124 then                                                        (* | *)
       Some (mkP Normal (p_stack p) (mkF (f_group (p_cur p)) (seq_of (rev (f_seq (p_cur p))) :: f_alts (p_cur p)) [] false) (p_next p) (p_names p))
     else if c =? 42 then repeat_last p Star                                      (* * *)
     else if c =? 43 then repeat_last p Plus                                      (* + *)
     else if c =? 63 then repeat_last p Opt                                       (* ? *)
     else if c =? 123 then None                                                   (* { *)
     else if c =? 91 then Some (with_mode p (InSet [] None false false))          (* [ *)
     else if c =? 46 then Some (put p (Chr (fun d => negb (d =? newline))))       (* . *)
     else if c =? 94 then if is_start p then Some (put p Eps) else None           (* ^ *)
     else if c =? 36 then Some (put p Eol)                                        (* $ *)
     else Some (put p (Chr (same c))))%N.
  Definition flush (items : list sitem) (pending : option chr) : list sitem :=
    match pending with Some c => items ++ [SChr c] | None => items end.
  (** one character of the pattern *)
  Definition pstep (p : pstate) (c : chr) : option pstate :=
    match p_mode p with
    | Normal => normal p c
    | Comment => Some (if (c =? newline)%N then with_mode p Normal else p)
    | Escape =>
        if (c =? 115)%N then Some (put p (Chr space))                             (* \s *)
        else if ascii_alnum c then None                                           (* other classes, back-references, ... *)
        else Some (put p (Chr (same c)))
    | Open => if (c =? 63)%N then Some (with_mode p OpenQ) else normal (open_group p true None) c
    | OpenQ => if (c =? 58)%N then Some (open_group p false None) else if (c =? 80)%N then Some (with_mode p OpenP) else None
    | OpenP => if (c =? 60)%N then Some (with_mode p (Name [])) else None
    | Name n => if (c =? 62)%N then Some (open_group p true (Some n)) else Some (with_mode p (Name (n ++ [c])))
    | InSet items pending dash true =>                                            (* after \ *)
        if ascii_alnum c then None else Some (with_mode p (InSet (flush items pending) (Some c) false false))
    | InSet items pending dash false =>
        let first := is_nil items && match pending with None => true | Some _ => false end in
        (if c =? 93 then                                                          (* ] *)
           if first then None
           else let items := flush items pending ++ (if dash then [SChr 45] else []) in
                Some (put p (Chr (fun d => existsb (sitem_matches d) items)))
         else if c =? 92 then if dash then None else Some (with_mode p (InSet items pending false true))
         else if first && (c =? 94) then None
         else match pending with
              | Some lo =>
                  if dash then if c <? lo then None else Some (with_mode p (InSet (items ++ [SRange lo c]) None false false))
                  else if c =? 45 then Some (with_mode p (InSet items pending true false))
                  else Some (with_mode p (InSet (flush items pending) (Some c) false false))
              | None => Some (with_mode p (InSet items (Some c) false false))
              end)%N
    end.
  Fixpoint prun (p : pstate) (s : str) : option pstate :=
    match s with
    | [] => Some p
    | c :: t => match pstep p c with Some p => prun p t | None => None end
    end.
  Definition pinit : pstate := mkP Normal [] (mkF None [] [] false) 1 [].
  (** the tree, and the numbers of the named groups *)
  Definition compile (pattern : str) : option (re * list (str * nat)) :=
    match prun pinit pattern with
    | Some p => match p_mode p, p_stack p with
                | Normal, [] | Comment, [] => Some (alt_of (p_cur p), p_names p)
                | _, _ => None
                end
    | None => None
    end.
End Compile.

Section Quote.
  (** [special]: the characters re.escape puts a backslash before (Lib/re/__init__.py; they differ between versions of Python); [space]: isspace *)
  Context (special space : chr -> bool).
  Definition re_escape (s : str) : str := flat_map (fun c => if special c then [92%N; c] else [c]) s.
  Definition all_space (s : str) : bool := negb (is_nil s) && forallb space s.    (* s.isspace() *)
  (** big/text.py:360-372 *)
  Definition re_quote (s : str) : str :=
    if negb (all_space s) then re_escape s
    else if 1 <? length s then u "(?:" ++ s ++ u ")"
    else s.
  (** sep.join(l) *)
  Fixpoint sjoin (sep : str) (l : list str) : str :=
    match l with [] => [] | [x] => x | x :: t => x ++ sep ++ sjoin sep t end.
  (** big/text.py:820-844 *)
  Definition separators_to_re (separators : list str) (separate keep : bool) : str :=
    let pattern := sjoin (u "|") (map re_quote (sort longer separators)) in
    let pattern := if separate then pattern else u "(?:" ++ pattern ++ u ")+" in
    if keep then u "(" ++ pattern ++ u ")" else pattern.
  (** big/text.py:3247-3264 the pattern of lines_filter_line_comment_lines *)
  Definition comment_pattern (markers : list str) : str := u "\s*" ++ separators_to_re markers false false.
  (** big/text.py:944-953 multistrip: the patterns for the start and the end *)
  Definition left_pattern (separators : list str) : str := u "^" ++ separators_to_re separators false false.
  Definition right_pattern (separators : list str) : str := separators_to_re separators false false ++ u "$".
End Quote.

(** Lib/re/__init__.py _special_chars_map, Python 3.7 and later *)
Definition special_37 (c : chr) : bool := existsb (N.eqb c) (u "()[]{}?*+-|^$\.&~#" ++ [32; 9; 10; 13; 11; 12]%N).

(** big/version.py:59-87 VERSION_PATTERN *)
Definition nl : str := [10%N].
Definition VERSION_PATTERN : str :=
  u "^\s*" ++
  nl ++ u "    v?"
  ++ nl ++ u "    (?:"
  ++ nl ++ u "        (?:(?P<epoch>[0-9]+)!)?                           # epoch"
  ++ nl ++ u "        (?P<release>[0-9]+(?:\.[0-9]+)*)                  # release segment"
  ++ nl ++ u "        (?P<pre>                                          # pre-release"
  ++ nl ++ u "            [-_\.]?"
  ++ nl ++ u "            (?P<pre_l>(a|b|c|rc|alpha|beta|pre|preview))"
  ++ nl ++ u "            [-_\.]?"
  ++ nl ++ u "            (?P<pre_n>[0-9]+)?"
  ++ nl ++ u "        )?"
  ++ nl ++ u "        (?P<post>                                         # post release"
  ++ nl ++ u "            (?:-(?P<post_n1>[0-9]+))"
  ++ nl ++ u "            |"
  ++ nl ++ u "            (?:"
  ++ nl ++ u "                [-_\.]?"
  ++ nl ++ u "                (?P<post_l>post|rev|r)"
  ++ nl ++ u "                [-_\.]?"
  ++ nl ++ u "                (?P<post_n2>[0-9]+)?"
  ++ nl ++ u "            )"
  ++ nl ++ u "        )?"
  ++ nl ++ u "        (?P<dev>                                          # dev release"
  ++ nl ++ u "            [-_\.]?"
  ++ nl ++ u "            (?P<dev_l>dev)"
  ++ nl ++ u "            [-_\.]?"
  ++ nl ++ u "            (?P<dev_n>[0-9]+)?"
  ++ nl ++ u "        )?"
  ++ nl ++ u "    )"
  ++ nl ++ u "    (?:\+(?P<local>[a-z0-9]+(?:[-_\.][a-z0-9]+)*))?       # local version"
  ++ nl ++ u "\s*$".
(** big/version.py:94 *)
Definition SEGMENT_PATTERN : str := u "^[A-Za-z0-9]+$".
