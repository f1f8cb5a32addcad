(** From big.deprecated to big.text: how a call of parse_delimiters is turned into a call of
    split_delimiters, and when the two should agree, independently of the code. *)
From Verif Require Import PyStr PyBase.
From Verif Require DelimModel DeprModel.
(* only the records of the arguments are used: DeprModel.delim (a Delimiter of
   big.deprecated), DelimModel.delimiter (a Delimiter of big.text) *)

(** A pair of delimiters.  A nesting one: other delimiters count inside it; a quoting one:
    they do not, and a backslash escapes.  p_multiline: quoted text may contain line breaks
    (only the new function knows about that). *)
Record pair := mkPair { p_open : chr; p_close : chr; p_quote : bool; p_multiline : bool }.
(** as an argument of the old function, Delimiter(open, close, backslash=, nested=) *)
Definition old_delimiter (p : pair) : DeprModel.delim := DeprModel.mkDelim [p_open p] [p_close p] (p_quote p) (negb (p_quote p)).
(** as an entry of the mapping for the new one: open: Delimiter(close, escape=, multiline=, quoting=) *)
Definition new_delimiter (p : pair) : str * DelimModel.delimiter :=
  ([p_open p], if p_quote p then DelimModel.mkDelimiter [p_close p] [92%N] (p_multiline p) true
               else DelimModel.mkDelimiter [p_close p] [] true false).
(** the pairs both functions take: at least one; no backslash; different opening delimiters;
    what closes one does not open another; what closes and opens is a quote mark *)
Definition pairs_ok (ps : list pair) : Prop :=
  ps <> [] /\ NoDup (map p_open ps) /\
  (forall p, In p ps -> p_open p <> 92%N /\ p_close p <> 92%N) /\
  (forall p p', In p ps -> In p' ps -> p_close p = p_open p' -> p = p' /\ p_quote p = true).

(** a line break in quoted text that is not escaped *)
Fixpoint bare_break (linebreak : chr -> bool) (escaped : bool) (t : str) : bool :=
  match t with
  | [] => false
  | c :: t => if escaped then bare_break linebreak false t
              else if (c =? 92)%N then bare_break linebreak true t
              else linebreak c || bare_break linebreak false t
  end.
Section Understood.
  Context (ps : list pair) (linebreak : chr -> bool).
  (** Text the new function takes, too: outside quotes, no backslash (if there are quote marks
      at all); inside, no line break unless that is allowed or it is escaped. *)
  Definition text_ok (quoted : option pair) (t : str) : Prop :=
    match quoted with
    | None => (exists p, In p ps /\ p_quote p = true) -> ~ In 92%N t
    | Some p => p_multiline p = true \/ bare_break linebreak false t = false
    end.
  (** the quoting pair that the string o opens, if it does *)
  Definition quoting (o : str) : option pair := find (fun p => p_quote p && str_eqb [p_open p] o) ps.
  (** all the text in the tuples (text, open, close); a quoting delimiter that is opened is
      closed by the next tuple *)
  Fixpoint understood (quoted : option pair) (l : list (str * str * str)) : Prop :=
    match l with
    | [] => True
    | (t, o, _) :: l => text_ok quoted t /\ understood (quoting o) l
    end.
End Understood.
Definition nonempty (s : str) : bool := match s with [] => false | _ => true end.
(** as many delimiters are closed as are opened *)
Definition all_closed (l : list (str * str * str)) : Prop :=
  length (filter (fun t : str * str * str => nonempty (snd (fst t))) l) = length (filter (fun t : str * str * str => nonempty (snd t)) l).
(** without the tuple for the text after the last delimiter *)
Definition up_to_last_delimiter (l : list (str * str * str)) : list (str * str * str) :=
  filter (fun t : str * str * str => nonempty (snd (fst t)) || nonempty (snd t)) l.
(** the default delimiters of both functions *)
Definition default_pairs : list pair :=
  [mkPair 40 41 false false; mkPair 91 93 false false; mkPair 123 125 false false; mkPair 39 39 true false; mkPair 34 34 true false]%N.
