(** Specification vocabulary for wrap_words, split_title_case and gently_title. *)
From Verif Require Export PyStr.

(** * wrap_words *)
Definition sentence_end (w : str) : Prop := exists r p, w = r ++ [p] /\ In p [46; 63; 33]%N.      (* . ? ! *)
Section Wrap.
  (** whether a sentence end is followed by two spaces; the margin; which words are white space *)
  Context (two_spaces : bool) (margin : Z) (blank : str -> bool).
  (** what is put between two words of a line *)
  Definition gap (last : str) (g : str) : Prop :=
    (two_spaces = true /\ sentence_end last /\ g = [32; 32]%N) \/ (~ (two_spaces = true /\ sentence_end last) /\ g = [32]%N).
  (** [line_of ws text last]: the words [ws] on one line.  A word is preceded by a gap if
      there is any text before it on the line. *)
  Inductive line_of : list str -> str -> str -> Prop :=
  | line_first w : line_of [w] w w
  | line_after_nothing ws last w : line_of ws [] last -> line_of (ws ++ [w]) w w
  | line_next ws text last g w : line_of ws text last -> text <> [] -> gap last g -> line_of (ws ++ [w]) (text ++ g ++ w) w.
  (** the line is not too long, or consists of a single word (and perhaps empty ones before it) *)
  Definition fits (ws : list str) (text : str) : Prop :=
    (Z.of_nat (length text) <= margin)%Z \/ exists e w, ws = e ++ [w] /\ forall x, In x e -> x = [].
  (** there is no room for the word w at the end of the line *)
  Definition no_room (text last w : str) : Prop :=
    text <> [] /\ exists g, gap last g /\ (margin < Z.of_nat (length text + length g + length w))%Z.
  (** [filled ws lines]: the words, none of them white space, laid out in lines, each one as full as possible *)
  Inductive filled : list str -> list str -> Prop :=
  | filled_nothing : filled [] []
  | filled_last ws text last : line_of ws text last -> fits ws text -> filled ws [text]
  | filled_more ws text last w rest lines : line_of ws text last -> fits ws text -> no_room text last w ->
      filled (w :: rest) lines -> filled (ws ++ w :: rest) (text :: lines).
  (** words among which there are white space ones: these are copied, and what follows starts afresh *)
  Inductive wrapped : list str -> str -> Prop :=
  | wrapped_end ws lines : (forall w, In w ws -> blank w = false) -> filled ws lines -> wrapped ws (join [10%N] lines)
  | wrapped_blank ws lines b rest out : (forall w, In w ws -> blank w = false) -> filled ws lines -> blank b = true ->
      wrapped rest out -> wrapped (ws ++ b :: rest) (join [10%N] lines ++ b ++ out).
End Wrap.

(** * split_title_case *)
Section Title.
  Context (isupper islower : chr -> bool) (split_allcaps : bool).
  (** a new word starts between the texts [before] and [after]: at an upper case letter that
      follows a lower case one, or is the last of several upper case ones and followed by a
      lower case one *)
  Definition word_boundary (before after : str) : Prop :=
    exists b p c a, before = b ++ [p] /\ after = c :: a /\ isupper c = true /\
      (islower p = true \/ (split_allcaps = true /\ isupper p = true /\ exists n a', a = n :: a' /\ islower n = true)).
End Title.

(** * gently_title *)
Section Gently.
  (** characters words are separated by; characters that are quote marks, and those of them that
      are apostrophes; the letters that with an apostrophe begin a name (O' and D') *)
  Context (space quote apostrophe : chr -> bool) (d_or_o : chr -> bool).
  (** [word_so_far before w]: w is the beginning of a word at the end of [before] *)
  Definition word_so_far (before w : str) : Prop :=
    exists a, before = a ++ w /\ (a = [] \/ exists r c, a = r ++ [c] /\ space c = true) /\ existsb space w = false.
  Definition only_quotes (w : str) : Prop := w <> [] /\ forallb quote w = true.
  Definition name_letter (w : str) : Prop := exists d, w = [d] /\ quote d = false /\ d_or_o d = true.
  Definition name_prefix (w : str) : Prop := exists d a, w = [d; a] /\ quote d = false /\ d_or_o d = true /\ apostrophe a = true.
  (** the documented rules: the first character of a word, the one after quote marks that begin
      the word, and the one after O' or D' beginning the word *)
  Definition capital (before : str) (c : chr) : Prop :=
    space c = false /\ exists w, word_so_far before w /\ (w = [] \/ (only_quotes w /\ quote c = false) \/ name_prefix w).
  (** What gently_title really takes for a word: a space right after quote marks that begin a word, after a letter O or D that
      begins one, or after that letter and an apostrophe, does not end the word. *)
  Definition unfinished (w : str) : Prop := only_quotes w \/ name_letter w \/ name_prefix w.
  Inductive long_word : str -> str -> Prop :=
  | Begin : long_word [] []
  | Letter before w c : long_word before w -> space c = false \/ unfinished w -> long_word (before ++ [c]) (w ++ [c])
  | Gap before w c : long_word before w -> space c = true -> ~ unfinished w -> long_word (before ++ [c]) [].
  (** the characters it really upper-cases; a space is one of them if it follows quote marks or O' or D' *)
  Definition really_capital (before : str) (c : chr) : Prop :=
    exists w, long_word before w /\ ((w = [] /\ space c = false) \/ (only_quotes w /\ quote c = false) \/ name_prefix w).
End Gently.
