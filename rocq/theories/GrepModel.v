(** Model of big/file.py: fgrep and grep.  The file is the characters (or bytes) in it, as the
    decoder gives them, or the exception of open() or of decoding it; the re module is a parameter (RefindModel.pattern).
    Not modelled: the codecs, the difference between str, bytes and pathlib.Path for path. *)
From Verif Require Export PyStr RefindModel.

(** reading in text mode: universal newlines *)
Fixpoint universal (s : str) : str :=
  match s with
  | [] => []
  | 13%N :: t => 10%N :: match t with 10%N :: r => universal r | _ => universal t end
  | c :: t => c :: universal t
  end.
Definition read (is_bytes : bool) (raw : str) : str := if is_bytes then raw else universal raw.

(** str.lower() and bytes.lower().  The tables of the Unicode database are a parameter; a capital
    sigma becomes a final sigma if (skipping ignorable characters) a cased character is before it and none after it.
    (CPython, Objects/unicodeobject.c: do_lower, handle_capital_sigma) *)
Record case_tables := CaseTables { lower1 : chr -> str; cased : chr -> bool; ignorable : chr -> bool }.
Fixpoint next_cased (E : case_tables) (s : str) : bool :=
  match s with [] => false | c :: t => if ignorable E c then next_cased E t else cased E c end.
Fixpoint lower_from (E : case_tables) (before : str) (s : str) : str :=
  match s with
  | [] => []
  | c :: t => (if (c =? 931)%N then [if next_cased E before && negb (next_cased E t) then 962%N else 963%N] else lower1 E c)
              ++ lower_from E (c :: before) t
  end.
Definition lower (E : case_tables) (s : str) : str := lower_from E [] s.
(** bytes.lower() *)
Definition ascii_tables : case_tables :=
  CaseTables (fun c => [if (65 <=? c)%N && (c <=? 90)%N then (c + 32)%N else c]) (fun _ => false) (fun _ => false).

(** w in s *)
Definition is_in (w s : str) : bool := match find w s with Some _ => true | None => false end.
(** What is returned: lines, or (number, line) *)
Inductive found := Lines (l : list str) | Numbered (l : list (nat * str)).
Definition split_lines (s : str) : list str := split1 (fun c => (c =? 10)%N) s.
Definition enumerate1 {A} (l : list A) : list (nat * A) := combine (seq 1 (length l)) l.

(** big/file.py:50-101 fgrep *)
Definition fgrep (E : case_tables) (is_bytes encoding : bool) (file : result str) (text : str) (enumerate case_insensitive : bool) : result found :=
  if is_bytes && encoding then Err ValueError
  else rbind file (fun raw =>
    let contents := read is_bytes raw in
    let split := split_lines contents in
    if negb case_insensitive then
      if enumerate then Ok (Numbered (filter (fun t => is_in text (snd t)) (enumerate1 split)))
      else Ok (Lines (filter (fun line => is_in text line) split))
    else
      let lower_split := split_lines (lower E contents) in
      let text := lower E text in
      if enumerate then Ok (Numbered (map (fun t => (fst t, fst (snd t))) (filter (fun t => is_in text (snd (snd t))) (enumerate1 (combine split lower_split)))))
      else Ok (Lines (map fst (filter (fun t => is_in text (snd t)) (combine split lower_split))))).

(** big/file.py:104-170 grep, with the pattern already compiled *)
Definition grep (is_bytes encoding : bool) (file : result str) (p : pattern) (enumerate : bool) : result found :=
  if is_bytes && encoding then Err ValueError
  else rbind file (fun raw =>
    let split := split_lines (read is_bytes raw) in
    let search line := match re_search p line with Some _ => true | None => false end in
    if enumerate then Ok (Numbered (filter (fun t => search (snd t)) (enumerate1 split)))
    else Ok (Lines (filter search split))).
