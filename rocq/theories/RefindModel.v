(** Model of big/text.py: re_partition, reversed_re_finditer, re_rpartition (for a compiled pattern
    and a str).  The re module itself is a parameter:
    [p_match s pos endpos] is the end of pattern.match(s, pos, endpos), if it matches;
    [p_match_nonempty s pos endpos] is the end of the match found when an empty match is not
    accepted (what re's finditer does right after an empty match). *)
From Verif Require Export PyStr.

Record pattern := Pattern { p_match : str -> nat -> nat -> option nat; p_match_nonempty : str -> nat -> nat -> option nat }.
(** a Match object: its span.  m.group(0) is s[start:end] *)
Definition span := (nat * nat)%type.
Definition group0 (s : str) (m : span) : str := firstn (snd m - fst m) (skipn (fst m) s).

(** pattern.search: the first position, from pos on, where the pattern matches; [count] positions are left *)
Fixpoint search_from (p : pattern) (s : str) (advance : bool) (pos : nat) (count : nat) : option span :=
  match count with
  | O => None
  | S count => match (if advance then p_match_nonempty p s pos (length s) else p_match p s pos (length s)) with
               | Some e => Some (pos, e)
               | None => search_from p s false (S pos) count
               end
  end.
Definition re_search (p : pattern) (s : str) : option span := search_from p s false 0 (S (length s)).
(** pattern.finditer (since Python 3.7): an empty match may follow the previous match, but not another empty one *)
Fixpoint finditer_from (fuel : nat) (p : pattern) (s : str) (advance : bool) (pos : nat) : list span :=
  match fuel with
  | O => []
  | S fuel => match search_from p s advance pos (S (length s) - pos) with
              | None => []
              | Some (a, e) => (a, e) :: finditer_from fuel p s (a =? e) e
              end
  end.
Definition finditer (p : pattern) (s : str) : list span := finditer_from (2 * length s + 2) p s false 0.

(** str.find, str.partition and str.rpartition *)
Fixpoint is_prefix (w s : str) : bool :=
  match w, s with [], _ => true | x :: w, y :: s => (x =? y)%N && is_prefix w s | _ :: _, [] => false end.
Fixpoint find (w s : str) : option nat :=
  if is_prefix w s then Some 0 else match s with [] => None | _ :: t => option_map S (find w t) end.
Fixpoint rfind (w s : str) : option nat :=
  match (match s with [] => None | _ :: t => rfind w t end) with
  | Some i => Some (S i)
  | None => if is_prefix w s then Some 0 else None
  end.
Definition partition (w s : str) : result (str * str * str) :=
  match w with
  | [] => Err ValueError
  | _ => match find w s with Some i => Ok (firstn i s, w, skipn (i + length w) s) | None => Ok (s, [], []) end
  end.
Definition rpartition (w s : str) : result (str * str * str) :=
  match w with
  | [] => Err ValueError
  | _ => match rfind w s with Some i => Ok (firstn i s, w, skipn (i + length w) s) | None => Ok ([], [], s) end
  end.

(** An element of the tuple that is returned. *)
Inductive item := Text (s : str) | Match (m : span) | NoMatch.

(** big/text.py:457-467: the loop "for remaining"; [whole] is the string that was searched, [s] what is left of it *)
Fixpoint partition_loop (whole : str) (remaining : nat) (matches : list span) (s : str) : result (list item) :=
  match remaining with
  | O => Ok [Text s]
  | S r => match matches with
           | [] => Ok (Text s :: concat (repeat [NoMatch; Text []] remaining))
           | m :: matches => rbind (partition (group0 whole m) s) (fun '(before, _, s) =>
                             rmap (fun rest => Text before :: Match m :: rest) (partition_loop whole r matches s))
           end
  end.
(** big/text.py:375-467, reverse=False *)
Definition re_partition (s : str) (p : pattern) (count : Z) : result (list item) :=
  if (count =? 1)%Z then
    match re_search p s with
    | None => Ok [Text s; NoMatch; Text []]
    | Some m => rbind (partition (group0 s m) s) (fun '(before, _, after) => Ok [Text before; Match m; Text after])
    end
  else if (count =? 0)%Z then Ok [Text s]
  else if (count <? 0)%Z then Err ValueError
  else partition_loop s (Z.to_nat count) (finditer p s) s.

(** ** reversed_re_finditer *)
(** the tuples (end, -start, match), compared by end and then by -start *)
Definition tuple_ltb (a b : span) : bool := (snd a <? snd b) || ((snd a =? snd b) && (fst b <? fst a)).
(** list.sort of such tuples; with equal spans the Match objects would be compared, a TypeError *)
Fixpoint has_duplicate (l : list span) : bool :=
  match l with [] => false | m :: t => existsb (fun m' => (fst m =? fst m') && (snd m =? snd m')) t || has_duplicate t end.
Definition sort_matches (l : list span) : result (list span) := if has_duplicate l then Err TypeError else Ok (sort tuple_ltb l).
(** big/text.py:559-580: the loop over the matches of a pattern that matches empty strings *)
Fixpoint add_zeroes (p : pattern) (s : str) (zeroes : list nat) (matches : list span) : list span :=
  match matches with
  | [] => []
  | t :: matches =>
      let (start, e) := t in
      if existsb (Nat.eqb start) zeroes then t :: add_zeroes p s zeroes matches
      else if start =? e then t :: add_zeroes p s (start :: zeroes) matches
      else match p_match p s start start with
           | Some _ => (start, start) :: t :: add_zeroes p s (start :: zeroes) matches
           | None => t :: add_zeroes p s (start :: zeroes) matches
           end
  end.
(** big/text.py:604-646: the overlapping matches that are still viable *)
Fixpoint truncate (p : pattern) (s : str) (previous_match_start : nat) (l : list span) : list span :=
  match l with
  | [] => []
  | t :: l =>
      let (start, e) := t in
      if previous_match_start <? start then truncate p s previous_match_start l
      else if e <=? previous_match_start then t :: truncate p s previous_match_start l
      else match p_match p s start previous_match_start with
           | Some e => (start, e) :: truncate p s previous_match_start l
           | None => truncate p s previous_match_start l
           end
  end.
(** big/text.py:655-665: "while matches"; the last of the list is popped first, so the list is kept reversed.
    Gives the match found and the matches left. *)
Fixpoint next_viable (previous_match_start : nat) (matches : list span) : option span * list span :=
  match matches with
  | [] => (None, [])
  | t :: matches => if snd t <=? previous_match_start then (Some t, matches) else next_viable previous_match_start matches
  end.
(** big/text.py:681-686: "for pos in range(start, end)" *)
Fixpoint scan (p : pattern) (s : str) (previous_match_start : nat) (pos : nat) (count : nat) : list span :=
  match count with
  | O => []
  | S count => match p_match p s pos previous_match_start with
               | Some e => (pos, e) :: scan p s previous_match_start (S pos) count
               | None => scan p s previous_match_start (S pos) count
               end
  end.
(** big/text.py:603-698: "while True"; [matches] is reversed.  What is yielded, and the exception that ends it. *)
Definition yield_match (m : span) (g : list span * option exn) : list span * option exn := (m :: fst g, snd g).
Fixpoint reversed_loop (fuel : nat) (p : pattern) (s : str) (matches overlapping : list span) (previous_match_start : nat) : list span * option exn :=
  match fuel with
  | O => ([], Some RecursionError)
  | S fuel =>
      let overlapping := truncate p s previous_match_start overlapping in
      let (overlapping, matches) :=
        match overlapping with
        | _ :: _ => (overlapping, matches)
        | [] => match next_viable previous_match_start matches with
                | (None, matches) => ([], matches)
                | (Some (start, e), matches) => ((start, e) :: scan p s previous_match_start (S start) (min e previous_match_start - S start), matches)
                end
        end in
      match overlapping with
      | [] => ([], None)
      | _ => match sort_matches overlapping with
             | Err e => ([], Some e)
             | Ok sorted => match rev sorted with
                            | [] => ([], None)
                            | m :: others => yield_match m (reversed_loop fuel p s matches (rev others) (fst m))
                            end
             end
      end
  end.
(** big/text.py:471-720.  Every iteration yields a match; the number of iterations is bounded by
    the fuel given here (see the theorems). *)
Definition reversed_re_finditer (p : pattern) (s : str) : list span * option exn :=
  match finditer p s with
  | [] => ([], None)
  | matches =>
      let matches := match p_match p s 0 0 with Some _ => add_zeroes p s [] matches | None => matches end in
      match sort_matches matches with
      | Err e => ([], Some e)
      | Ok sorted => reversed_loop (S (length matches * S (length s))) p s (rev sorted) [] (length s)
      end
  end.

(** big/text.py:805-816: the loop "for remaining" of re_rpartition; the items are built from right to left *)
Fixpoint rpartition_loop (whole : str) (remaining : nat) (matches : list span) (s : str) : result (list item) :=
  match remaining with
  | O => Ok [Text s]
  | S r => match matches with
           | [] => Ok (concat (repeat [Text []; NoMatch] remaining) ++ [Text s])
           | m :: matches => rbind (rpartition (group0 whole m) s) (fun '(s, _, after) =>
                             rmap (fun rest => rest ++ [Match m; Text after]) (rpartition_loop whole r matches s))
           end
  end.
(** the first [n] matches of the generator, or its exception if it comes before *)
Definition take (n : nat) (g : list span * option exn) : result (list span) :=
  match snd g with Some e => if length (fst g) <? n then Err e else Ok (fst g) | None => Ok (fst g) end.
(** big/text.py:722-816 *)
Definition re_rpartition (s : str) (p : pattern) (count : Z) : result (list item) :=
  if (count =? 1)%Z then
    rbind (take 1 (reversed_re_finditer p s)) (fun matches =>
    match matches with
    | [] => Ok [Text []; NoMatch; Text s]
    | m :: _ => rbind (rpartition (group0 s m) s) (fun '(before, _, after) => Ok [Text before; Match m; Text after])
    end)
  else if (count =? 0)%Z then Ok [Text s]
  else if (count <? 0)%Z then Err ValueError
  else rbind (take (Z.to_nat count) (reversed_re_finditer p s)) (fun matches => rpartition_loop s (Z.to_nat count) matches s).
