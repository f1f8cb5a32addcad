(** What the words of a text with code are. *)
From Verif Require Export LinesModel.

Section Spec.
  Context (is_bytes : bool) (tab_width : nat) (allow_code : bool) (code_indent : nat) (convert_tabs_to_spaces : bool).
  Definition blank_text (s : str) : Prop := Forall (fun c => white is_bytes c = true) s.
  Definition word_text (s : str) : Prop := s <> [] /\ Forall (fun c => white is_bytes c = false) s.
  (** a line: its words, each with the whitespace before it *)
  Inductive tokens_of : str -> list (str * str) -> Prop :=
  | NoToken l : blank_text l -> tokens_of l []
  | Token l w rest toks : blank_text l -> word_text w -> (forall c r, rest = c :: r -> white is_bytes c = true) ->
      tokens_of rest toks -> tokens_of (l ++ w ++ rest) ((l, w) :: toks).
  (** the column after spaces and tabs; None if there is other whitespace *)
  Fixpoint column (s : str) (col : nat) : option nat :=
    match s with
    | [] => Some col
    | c :: s => if (c =? 9)%N then column s (S (col / tab_width) * tab_width) else if (c =? 32)%N then column s (S col) else None
    end.
  (** str.expandtabs *)
  Fixpoint expand (s : str) (col : nat) : str :=
    match s with
    | [] => []
    | c :: s => if (c =? 9)%N then repeat 32%N (S (col / tab_width) * tab_width - col) ++ expand s (S (col / tab_width) * tab_width) else c :: expand s (S col)
    end.
  Inductive class := Blank | Text (words : list str) | Code (text : str).
  Definition indented (l : str) : Prop := allow_code = true /\ exists col, column l 0 = Some col /\ code_indent <= col.
  Definition not_indented (l : str) : Prop := allow_code = true -> exists col, column l 0 = Some col /\ col < code_indent.
  Definition joined (toks : list (str * str)) : str := flat_map (fun t => fst t ++ snd t) toks.
  (** A blank line; text, of which only the words count; code, which is kept up to its last word *)
  Inductive is_class : str -> class -> Prop :=
  | IsBlank line : tokens_of line [] -> is_class line Blank
  | IsText line l w toks : tokens_of line ((l, w) :: toks) -> not_indented l -> is_class line (Text (map snd ((l, w) :: toks)))
  | IsCode line l w toks : tokens_of line ((l, w) :: toks) -> indented l ->
      Forall (fun t => Forall (fun c => c = 9%N \/ c = 32%N) (fst t)) ((l, w) :: toks) ->
      is_class line (Code (let t := joined ((l, w) :: toks) in if convert_tabs_to_spaces then expand t 0 else t)).
End Spec.

(** Blocks: a paragraph is the words of lines of text with no blank line in between; a code block is
    lines of code, the later ones with the number of newlines before them (one more than the blank lines). *)
Inductive block := Paragraph (words : list str) | CodeBlock (first : str) (more : list (nat * str)).
Fixpoint blanks (ls : list class) : nat := match ls with Blank :: ls => S (blanks ls) | _ => 0 end.
Definition starts_with_text (ls : list class) : bool := match ls with Text _ :: _ => true | _ => false end.
Fixpoint group (ls : list class) : list block :=
  match ls with
  | [] => []
  | Blank :: r => group r
  | Code t :: r => match group r with
                   | CodeBlock f more :: bs => CodeBlock t ((S (blanks r), f) :: more) :: bs
                   | bs => CodeBlock t [] :: bs
                   end
  | Text ws :: r => match group r with
                    | Paragraph ws' :: bs => if starts_with_text r then Paragraph (ws ++ ws') :: bs else Paragraph ws :: Paragraph ws' :: bs
                    | bs => Paragraph ws :: bs
                    end
  end.
Definition block_words (b : block) : list str :=
  match b with Paragraph ws => ws | CodeBlock f more => f :: flat_map (fun t => repeat [10%N] (fst t) ++ [snd t]) more end.
(** blocks are separated by a paragraph break *)
Definition all_words (bs : list block) : list str :=
  match bs with [] => [[]] | b :: bs => block_words b ++ flat_map (fun b => [10%N; 10%N] :: block_words b) bs end.
Definition is_code_block (b : block) : bool := match b with CodeBlock _ _ => true | _ => false end.
(** the characters that are not whitespace *)
Definition ink (is_bytes : bool) (s : str) : str := filter (fun c => negb (white is_bytes c)) s.
(** the lines of a string *)
Definition lines_of (s : str) (lines : list str) : Prop := lines <> [] /\ join [10%N] lines = s /\ Forall (fun l => ~ In 10%N l) lines.
