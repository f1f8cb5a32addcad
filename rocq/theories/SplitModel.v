(** Model of big/text.py: __separators_to_re, multistrip, multisplit, multipartition,
    normalize_whitespace.  A string is a list of code points, so one model serves str and
    bytes (arguments of mixed type raise TypeError and are not modelled).  Patterns are
    syntax trees for the matcher of Regex.v instead of pattern strings; PatModel.v models the
    pattern strings, and C117 proves that re reads them as these trees.  A generator is represented by the list of what it yields. *)
From Verif Require Export Regex.

(** re.compile(r).search(s): text before the leftmost match, the match, the text after *)
Fixpoint re_search (r : re) (s : str) : option (str * str * str) :=
  match re_match r s with
  | Some (_, rest) => Some ([], firstn (length s - length rest) s, rest)
  | None =>
      match s with
      | [] => None
      | c :: t => match re_search r t with
                  | Some (before, m, after) => Some (c :: before, m, after)
                  | None => None
                  end
      end
  end.
(** re.split(r, s, limit) for a pattern that cannot match the empty string, with the
    pattern in a group: each string before a match with the match, and the last string.
    [None] is no limit. *)
Fixpoint re_split_fuel (fuel : nat) (r : re) (limit : option nat) (s : str) : list (str * str) * str :=
  match fuel, limit with
  | O, _ | _, Some O => ([], s)
  | S f, _ =>
      match re_search r s with
      | None => ([], s)
      | Some (before, m, after) =>
          let '(l, y) := re_split_fuel f r (option_map pred limit) after in ((before, m) :: l, y)
      end
  end.
Definition re_split (r : re) (limit : option nat) (s : str) : list (str * str) * str := re_split_fuel (length s) r limit s.
(** the list re.split returns: with the matches (group) or without *)
Definition with_seps (p : list (str * str) * str) : list str := flat_map (fun q => [fst q; snd q]) (fst p) ++ [snd p].
Definition without_seps (p : list (str * str) * str) : list str := map fst (fst p) ++ [snd p].

(** big/text.py:820-847 __separators_to_re.  [separators] is not empty. *)
Definition longer (a b : str) : bool := length b <? length a.
Definition literal (w : str) : re := Lit N.eqb w.
Definition alternatives (l : list str) : re :=
  match map literal l with [] => Chr (fun _ => false) | r :: t => fold_left Alt t r end.
Definition separators_re (separators : list str) (separate : bool) : re :=
  let a := alternatives (sort longer separators) in          (* separators.sort(key=lambda o: -len(o)) *)
  if separate then a else Plus a.

Definition is_nil {A} (l : list A) : bool := match l with [] => true | _ => false end.
(** big/text.py:859-955 multistrip *)
Definition multistrip (s : str) (separators : list str) (left right : bool) : result str :=
  if is_nil separators then Err ValueError
  else if existsb is_nil separators then Err ValueError
  else if negb (left || right) then Ok s
  else
    let pattern := separators_re separators false in
    let s := if left then match re_match pattern s with Some (_, rest) => rest | None => s end else s in
    let s := if right then match re_search (Seq pattern Eol) s with Some (before, _, _) => before | None => s end else s in
    Ok s.

(** big/text.py:126-306 the separator tuples for str *)
Definition str_whitespace : list str :=
  ([[9]; [10]; [11]; [12]; [13]; [13; 10]; [28]; [29]; [30]; [31]; [32]; [133]; [160]; [5760];
    [8192]; [8193]; [8194]; [8195]; [8196]; [8197]; [8198]; [8199]; [8200]; [8201]; [8202];
    [8232]; [8233]; [8239]; [8287]; [12288]])%N.
Definition without_crlf (l : list str) : list str := filter (fun s => negb (str_eqb s [13; 10]%N)) l.
Definition str_le (a b : str) : bool := negb (str_ltb b a).
(** tuple(s for s in l if not ('\x1c' <= s <= '\x1f')) and tuple(s for s in l if s < '\x80') *)
Definition unicode_only (l : list str) : list str := filter (fun s => negb (str_le [28]%N s && str_le s [31]%N)) l.
Definition ascii_only (l : list str) : list str := filter (fun s => str_ltb s [128]%N) l.
Definition str_whitespace_without_crlf := without_crlf str_whitespace.
Definition unicode_whitespace := unicode_only str_whitespace.
Definition unicode_whitespace_without_crlf := without_crlf unicode_whitespace.
Definition ascii_whitespace := ascii_only unicode_whitespace.
Definition ascii_whitespace_without_crlf := without_crlf ascii_whitespace.
Definition str_linebreaks : list str :=
  ([[10]; [11]; [12]; [13]; [13; 10]; [28]; [29]; [30]; [133]; [8232]; [8233]])%N.
Definition str_linebreaks_without_crlf := without_crlf str_linebreaks.
Definition unicode_linebreaks := unicode_only str_linebreaks.
Definition unicode_linebreaks_without_crlf := without_crlf unicode_linebreaks.
(** big/text.py:286-300, for a Python whose bytes.splitlines splits only at \n and \r *)
Definition bytes_linebreaks : list str := ([[10]; [13]; [13; 10]])%N.
Definition bytes_linebreaks_without_crlf := without_crlf bytes_linebreaks.

(** big/text.py:339-357 _reversed_builtin_separators.get *)
Fixpoint strs_eqb (a b : list str) : bool :=
  match a, b with [], [] => true | x :: s, y :: t => str_eqb x y && strs_eqb s t | _, _ => false end.
Definition lf_cr : str := [10; 13]%N.
Definition reversed_builtin_separators : list (list str * list str) :=
  [ (str_whitespace, str_whitespace_without_crlf ++ [lf_cr]);
    (str_whitespace_without_crlf, str_whitespace_without_crlf);
    (unicode_whitespace, unicode_whitespace_without_crlf ++ [lf_cr]);
    (unicode_whitespace_without_crlf, unicode_whitespace_without_crlf);
    (ascii_whitespace, ascii_whitespace_without_crlf ++ [lf_cr]);
    (ascii_whitespace_without_crlf, ascii_whitespace_without_crlf);
    (str_linebreaks, str_linebreaks_without_crlf ++ [lf_cr]);
    (str_linebreaks_without_crlf, str_linebreaks_without_crlf);
    (unicode_linebreaks, unicode_linebreaks_without_crlf ++ [lf_cr]);
    (unicode_linebreaks_without_crlf, unicode_linebreaks_without_crlf);
    (bytes_linebreaks, bytes_linebreaks_without_crlf ++ [lf_cr]);
    (bytes_linebreaks_without_crlf, bytes_linebreaks_without_crlf) ].
Fixpoint lookup_separators (table : list (list str * list str)) (l : list str) : option (list str) :=
  match table with
  | [] => None
  | (k, v) :: t => if strs_eqb k l then Some v else lookup_separators t l
  end.
(** big/text.py:991-998: the separators to use when reverse is true *)
Definition reverse_separators (l : list str) : list str :=
  match lookup_separators reversed_builtin_separators l with Some v => v | None => map (@rev chr) l end.

(** keep= and strip= *)
Inductive keep_mode := KeepFalse | KeepTrue | Alternating | AsPairs.
Inductive strip_mode := StripFalse | StripTrue | StripLeft | StripRight | Progressive.
(** what is yielded: a string, or a 2-tuple *)
Inductive item := Str (s : str) | Two (a b : str).

(** l[0], l[2], l[4], ...: "for i in range(len(l) - 2, 0, -2): del l[i]" for a list of odd
    length *)
Fixpoint evens {A} (l : list A) : list A := match l with x :: _ :: t => x :: evens t | l => l end.
(** big/text.py:1017-1025: the largest even i > 0 with l[i] not empty, or 0 *)
Definition last_non_empty (l : list str) : nat :=
  match find (fun i => negb (is_nil (nth i l []))) (map (fun k => length l - 1 - 2 * k) (seq 0 (length l / 2))) with
  | Some i => i
  | None => 0
  end.
(** big/text.py:1076-1092 pairs of consecutive elements of a list of even length *)
Fixpoint in_pairs (l : list str) : list (str * str) := match l with a :: b :: t => (a, b) :: in_pairs t | _ => [] end.

(** big/text.py:972-1092 the generator.  A [maxsplit] below -1 makes re.split do nothing. *)
Definition multisplit_gen (s : str) (separators : list str) (keep : keep_mode) (maxsplit : option Z) (reverse separate : bool)
    (strip : strip_mode) (re_keep : bool) : list item :=
  let maxsplit := match maxsplit with None => (-1)%Z | Some m => m end in
  if (maxsplit =? 0)%Z then match keep with AsPairs => [Two s []] | _ => [Str s] end
  else
    let limit := if (maxsplit =? -1)%Z then None else Some (Z.to_nat maxsplit) in
    let s := if reverse then rev s else s in
    let separators := if reverse then reverse_separators separators else separators in
    let p := re_split (separators_re separators separate) limit s in
    let l := if re_keep then with_seps p else without_seps p in
    let l := match strip with
             | Progressive =>
                 let desired_length := (1 + 2 * maxsplit)%Z in
                 let last := last_non_empty l in
                 let l := if (Z.of_nat (last + 2) <? desired_length)%Z then firstn (last + 1) l else l in
                 match keep with KeepFalse => evens l | _ => l end
             | _ => l
             end in
    (* what popping the list from the end yields *)
    let l := if reverse then rev (map (@rev chr) l) else l in
    match keep with
    | KeepFalse | Alternating => map Str l
    | _ =>
        let l := if Nat.odd (length l) then l ++ [[]] else l in
        map (fun p => match keep with AsPairs => Two (fst p) (snd p) | _ => Str (fst p ++ snd p) end) (in_pairs l)
    end.

(** big/text.py:1216-1276 multisplit.  [separators]: None or an iterable of non-empty strings
    (an empty separator is not rejected here unless strip is true; what re.split then does
    is modelled in TypedModel.v). *)
Definition multisplit (s : str) (separators : option (list str)) (keep : keep_mode) (maxsplit : option Z) (reverse separate : bool)
    (strip : strip_mode) : result (list item) :=
  let separators := match separators with None => str_whitespace | Some l => l end in
  if is_nil separators then Err ValueError
  else
    let re_keep := match keep with KeepFalse => false | _ => true end in
    match strip with
    | StripFalse => Ok (multisplit_gen s separators keep maxsplit reverse separate strip re_keep)
    | _ =>
        let all := match maxsplit with Some m => (m =? -1)%Z | None => false end in
        let '(strip, go_left, go_right, re_keep) :=
          match strip with
          | Progressive => if all then (StripTrue, true, true, re_keep) else (Progressive, negb reverse, reverse, true)
          | StripRight => (StripRight, false, true, re_keep)
          | StripLeft => (StripLeft, true, false, re_keep)
          | _ => (strip, true, true, re_keep)
          end in
        match multistrip s separators go_left go_right with
        | Err e => Err e
        | Ok s => let maxsplit := if is_nil s then Some 0%Z else maxsplit in
                  Ok (multisplit_gen s separators keep maxsplit reverse separate strip re_keep)
        end
    end.

Definition strs (l : list item) : list str := flat_map (fun i => match i with Str s => [s] | Two a b => [a; b] end) l.
(** big/text.py:1322-1345 multipartition *)
Definition multipartition (s : str) (separators : option (list str)) (count : Z) (reverse separate : bool) : result (list str) :=
  if (count <? 0)%Z then Err ValueError
  else match multisplit s separators Alternating (Some count) reverse separate StripFalse with
       | Err e => Err e
       | Ok l =>
           let l := strs l in
           let extension := repeat ([] : str) (2 * Z.to_nat count + 1 - length l) in
           Ok (if reverse then extension ++ l else l ++ extension)
       end.
(** big/text.py:1348-1350 multirpartition *)
Definition multirpartition (s : str) (separators : option (list str)) (count : Z) (reverse separate : bool) : result (list str) :=
  multipartition s separators count (negb reverse) separate.

(** str.split() and str.isspace(): words are maximal runs of non-space characters *)
Fixpoint split_ws_aux (s : str) : str * list str :=          (* (current word, later words) *)
  match s with
  | [] => ([], [])
  | c :: t => let '(w, l) := split_ws_aux t in
              if is_space c then ([], match w with [] => l | _ => w :: l end) else (c :: w, l)
  end.
Definition split_ws (s : str) : list str := let '(w, l) := split_ws_aux s in match w with [] => l | _ => w :: l end.
Definition starts_with_space (s : str) : bool := match s with c :: _ => is_space c | [] => false end.
(** big/text.py:1731-1826 normalize_whitespace on a str.  The general path is taken for every
    explicit [separators] (an iterable is copied, so it is never the built-in tuple). *)
Definition normalize_whitespace (s : str) (separators : option (list str)) (replacement : option str) : result str :=
  let general seps replacement :=
    match multisplit s (Some seps) KeepFalse (Some (-1)%Z) false false StripFalse with
    | Err e => Err e
    | Ok l => Ok (join replacement (strs l))
    end in
  let replacement := match replacement with None => [32%N] | Some r => r end in
  match separators with
  | None =>
      if is_nil s then Ok []
      else if forallb is_space s then Ok replacement               (* not s.strip() *)
      else
        let words := split_ws s in
        let words := if starts_with_space s then [] :: words else words in
        let words := if starts_with_space (rev s) then words ++ [[]] else words in
        Ok (join replacement words)
  | Some seps =>
      if existsb is_nil seps then Err ValueError
      else if is_nil seps then Err ValueError
      else if is_nil s then Ok []
      else general seps replacement
  end.
