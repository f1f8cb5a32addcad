(** What split_quoted_strings and split_delimiters should yield, independently of the code. *)
From Verif Require Import PyStr SplitSpec.

(** * Quoted strings *)
(** s, cut at the separators: text and tokens in turn *)
Inductive piece := Txt (s : str) | Tok (w : str).
Definition piece_text (p : piece) : str := match p with Txt s => s | Tok w => w end.
Definition text_of (ps : list piece) : str := concat (map piece_text ps).
Definition pieces (l : list (str * str)) (y : str) : list piece := flat_map (fun p => [Txt (fst p); Tok (snd p)]) l ++ [Txt y].
Definition no_token (bad : str -> Prop) (ps : list piece) : Prop := forall w, In (Tok w) ps -> ~ bad w.

(** one segment: what is yielded, and the quote mark it is inside of ([[]]: none) *)
Record segment := mkSegment { lead : str; body : str; trail : str; inside : str }.
Definition unquoted_segment (t : str) : list segment := match t with [] => [] | _ => [mkSegment [] t [] []] end.

(** the segments of a list of pieces that starts outside quotes / inside the quote mark q,
    whose opening mark is to be shown as [first] *)
Inductive outside (quote : str -> Prop) : list piece -> list segment -> Prop :=
| outside_end ps : no_token quote ps -> outside quote ps (unquoted_segment (text_of ps))
| outside_open ps q rest out : no_token quote ps -> quote q -> inside_of quote q q rest out ->
    outside quote (ps ++ Tok q :: rest) (unquoted_segment (text_of ps) ++ out)
with inside_of (quote : str -> Prop) : str -> str -> list piece -> list segment -> Prop :=
| inside_end first q ps : no_token (eq q) ps -> inside_of quote first q ps [mkSegment first (text_of ps) [] q]
| inside_close first q ps rest out : no_token (eq q) ps -> outside quote rest out ->
    inside_of quote first q (ps ++ Tok q :: rest) (mkSegment first (text_of ps) q q :: out).

(** The segments are yielded in order up to the first one with a line break inside a quote
    mark that does not allow it. *)
Section Deliver.
  Context (illegal : segment -> bool).
  Fixpoint deliver (l : list segment) : list (str * str * str) * option exn :=
    match l with
    | [] => ([], None)
    | x :: t => if illegal x then ([], Some SyntaxError)
                else let '(y, e) := deliver t in ((lead x, body x, trail x) :: y, e)
    end.
End Deliver.

(** With one-character quote marks and escape: a scanner that reads one character at a time. *)
Section Scan.
  Context (quotes multiline_quotes : list chr) (escape : option chr).
  Definition chr_in (c : chr) (l : list chr) : bool := existsb (N.eqb c) l.
  (** [mode]: None outside quotes, Some (q, first) inside *)
  Fixpoint scan (mode : option (chr * str)) (text : str) (s : str) : list segment :=
    match s with
    | [] => match mode with None => unquoted_segment text | Some (q, first) => [mkSegment first text [] [q]] end
    | c :: t =>
        let one :=
          match mode with
          | None => if chr_in c (quotes ++ multiline_quotes) then unquoted_segment text ++ scan (Some (c, [c])) [] t
                    else scan mode (text ++ [c]) t
          | Some (q, first) => if (c =? q)%N then mkSegment first text [q] [q] :: scan None [] t else scan mode (text ++ [c]) t
          end in
        match t, escape with
        | d :: t', Some e => if (c =? e)%N && (chr_in d quotes || (d =? e)%N) then scan mode (text ++ [c; d]) t' else one
        | _, _ => one
        end
    end.
End Scan.

(** * Delimiters *)
(** opening and closing delimiters match: [close k] is the delimiter that closes what k opens,
    [quoting k] says that k hides all other delimiters; the stack holds what is open *)
Inductive nested (close : str -> option str) (quoting : str -> bool) : list str -> list (str * str * str) -> Prop :=
| nested_end stack : nested close quoting stack []
| nested_text stack t : t <> [] -> nested close quoting stack [(t, [], [])]
| nested_open stack t k c l : close k = Some c -> k <> [] -> match stack with [] => True | top :: _ => quoting top = false end ->
    nested close quoting (k :: stack) l -> nested close quoting stack ((t, k, []) :: l)
| nested_close k stack t c l : close k = Some c -> c <> [] ->
    nested close quoting stack l -> nested close quoting (k :: stack) ((t, [], c) :: l).

(** One-character delimiters: nesting ones, and quoting ones with an escape character, inside
    of which line breaks may be forbidden. *)
Inductive delimiter1 := Nest (close : chr) | Quote (close escape : chr) (multiline : bool).
Section Scan1.
  Context (table : list (chr * delimiter1)) (linebreak : chr -> bool).
  Fixpoint opens (l : list (chr * delimiter1)) (c : chr) : option delimiter1 :=
    match l with [] => None | (k, d) :: t => if (k =? c)%N then Some d else opens t c end.
  (** c closes some delimiter or is an escape character *)
  Definition reserved (c : chr) : bool :=
    existsb (fun p : chr * delimiter1 => match snd p with Nest x => (x =? c)%N | Quote x e _ => (x =? c)%N || (e =? c)%N end) table.
  (** [stack]: the open delimiters, innermost first; [escaped]: an escape character has just been read *)
  Fixpoint scan1 (stack : list delimiter1) (text : str) (escaped : bool) (s : str) : list (str * str * str) * option exn :=
    match s with
    | [] => if escaped then ([], Some SyntaxError) else (match text with [] => [] | _ => [(text, [], [])] end, None)
    | c :: t =>
        let outside_quotes (close : option (chr * list delimiter1)) :=
          match opens table c with
          | Some d => let '(l, e) := scan1 (d :: stack) [] false t in ((text, [c], []) :: l, e)
          | None =>
              match close with
              | Some (x, below) => if (c =? x)%N then let '(l, e) := scan1 below [] false t in ((text, [], [c]) :: l, e)
                                   else if reserved c then ([], Some SyntaxError) else scan1 stack (text ++ [c]) false t
              | None => if reserved c then ([], Some SyntaxError) else scan1 stack (text ++ [c]) false t
              end
          end in
        if escaped then scan1 stack (text ++ [c]) false t
        else match stack with
             | [] => outside_quotes None
             | Nest x :: below => outside_quotes (Some (x, below))
             | Quote x e multiline :: below =>
                 if (c =? e)%N then scan1 stack (text ++ [c]) true t
                 else if (c =? x)%N then let '(l, e) := scan1 below [] false t in ((text, [], [c]) :: l, e)
                 else if negb multiline && linebreak c then ([], Some SyntaxError)
                 else scan1 stack (text ++ [c]) false t
             end
    end.
End Scan1.

(** a is b with some characters left out *)
Inductive subseq : str -> str -> Prop :=
| subseq_done : subseq [] []
| subseq_take c a b : subseq a b -> subseq (c :: a) (c :: b)
| subseq_skip c a b : subseq a b -> subseq a (c :: b).
