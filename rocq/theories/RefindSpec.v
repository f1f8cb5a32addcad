(** Specification for re_partition, reversed_re_finditer and re_rpartition: what is assumed of the
    pattern, and what the matches have to be. *)
From Verif Require Export RefindModel.

(** What holds of every pattern: a match lies between pos and endpos. *)
Definition sane (p : pattern) (s : str) : Prop :=
  (forall a e x, p_match p s a e = Some x -> a <= x <= e) /\ (forall a e x, p_match_nonempty p s a e = Some x -> a < x <= e).
(** A pattern without anchors and lookaround that does not match the empty string: it looks only
    at the text between pos and endpos ([m t] is the length of its match at the beginning of t),
    the match stays the same when text after it is cut off, and a match in a part of the text
    means that there is a match in the whole text. *)
Record plain_matcher (m : str -> option nat) : Prop := {
  pm_range : forall t k, m t = Some k -> 0 < k <= length t;
  pm_stable : forall t k j, m t = Some k -> k <= j -> m (firstn j t) = Some k;
  pm_monotone : forall t j, m (firstn j t) <> None -> m t <> None }.
Definition between (s : str) (a e : nat) : str := firstn (e - a) (skipn a s).
Definition plain (p : pattern) (s : str) : Prop := exists m, plain_matcher m /\
  (forall a e, p_match p s a e = if a <=? e then option_map (Nat.add a) (m (between s a (min e (length s)))) else None) /\
  (forall a e, p_match_nonempty p s a e = p_match p s a e).

(** [l] are the matches of a search from left to right, from [pos] on: each the first that starts after the one before it ends. *)
Fixpoint leftmost (p : pattern) (s : str) (pos : nat) (l : list span) : Prop :=
  match l with
  | [] => forall q, pos <= q -> p_match p s q (length s) = None
  | (a, e) :: l => pos <= a /\ p_match p s a (length s) = Some e /\ (forall q, pos <= q < a -> p_match p s q (length s) = None) /\ leftmost p s e l
  end.
(** Each match ends where the one before it starts, or before. *)
Definition right_to_left (l : list span) : Prop := StronglySorted (fun a b => snd b <= fst a) l.
(** [l] are matches from right to left in the first [prev] characters: each is a match in the text
    before the previous one, none that starts later ends later, and nothing is left over. *)
Fixpoint searched (p : pattern) (s : str) (prev : nat) (l : list span) : Prop :=
  match l with
  | [] => forall a, p_match p s a prev = None
  | (a, x) :: l => p_match p s a prev = Some x /\ (forall b y, a < b -> p_match p s b prev = Some y -> y <= x) /\ searched p s a l
  end.
(** No match lies wholly in the text between two matches, after the first or before the last. *)
Fixpoint gaps_empty (p : pattern) (s : str) (prev : nat) (l : list span) : Prop :=
  match l with
  | [] => forall a x, p_match p s a prev <> Some x
  | (a, x) :: l => (forall b y, x <= b -> p_match p s b prev <> Some y) /\ gaps_empty p s a l
  end.
(** Searching backwards: of all matches in the text before the previous one, the one that ends
    last, and of those that end there the longest. *)
Fixpoint reverse_search (p : pattern) (s : str) (prev : nat) (l : list span) : Prop :=
  match l with
  | [] => forall a, p_match p s a prev = None
  | (a, x) :: l => p_match p s a prev = Some x /\ (forall b y, p_match p s b prev = Some y -> y < x \/ (y = x /\ a <= b)) /\ reverse_search p s a l
  end.
(** Matches that start later end later, as when all have the same length. *)
Definition in_step (p : pattern) (s : str) : Prop := forall a b e x y, a < b -> p_match p s a e = Some x -> p_match p s b e = Some y -> x < y.

(** The result of partitioning at the given matches, from left to right: [pos] is where the text left begins. *)
Fixpoint cut_at (s : str) (count : nat) (l : list span) (pos : nat) : list item :=
  match count with
  | O => [Text (skipn pos s)]
  | S c => match l with
           | [] => Text (skipn pos s) :: concat (repeat [NoMatch; Text []] count)
           | (a, e) :: l => Text (between s pos a) :: Match (a, e) :: cut_at s c l e
           end
  end.
(** From right to left: [prev] is where the text left ends. *)
Fixpoint cut_at_right (s : str) (count : nat) (l : list span) (prev : nat) : list item :=
  match count with
  | O => [Text (firstn prev s)]
  | S c => match l with
           | [] => concat (repeat [Text []; NoMatch] count) ++ [Text (firstn prev s)]
           | (a, e) :: l => cut_at_right s c l a ++ [Match (a, e); Text (between s e prev)]
           end
  end.
(** Text and matches (or None) take turns, with [count] matches. *)
Fixpoint alternates (count : nat) (l : list item) : Prop :=
  match count, l with
  | O, [Text _] => True
  | S count, Text _ :: (Match _ | NoMatch) :: l => alternates count l
  | _, _ => False
  end.
(** all the text of the items *)
Definition item_text (s : str) (i : item) : str := match i with Text t => t | Match m => group0 s m | NoMatch => [] end.

(** Patterns for the examples: words tried in order. *)
Fixpoint first_word (words : list str) (t : str) : option nat :=
  match words with [] => None | w :: words => if is_prefix w t then Some (length w) else first_word words t end.
Definition words_pattern (words : list str) : pattern :=
  let f s a e := if a <=? e then option_map (Nat.add a) (first_word words (between s a (min e (length s)))) else None in
  let g s a e := if a <=? e then option_map (Nat.add a) (first_word (filter (fun w => negb (length w =? 0)) words) (between s a (min e (length s)))) else None in
  Pattern f g.
