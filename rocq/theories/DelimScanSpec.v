(** What split_delimiters yields with delimiters of any length: a scanner that reads the text
    from left to right, independently of the code (which cuts the text at all tokens with
    multisplit, and again whenever a token should have been read differently). *)
From Verif Require Import PyStr DelimModel.

Section AnyLength.
  (** [linebreak]: the line breaks of one character; [table]: opening delimiters and their Delimiter objects *)
  Context (linebreak : chr -> bool) (table : list (str * delimiter)).
  Definition opens_any (w : str) : option delimiter := option_map snd (find (fun p => str_eqb (fst p) w) table).
  (** w is an opening or closing delimiter, or an escape string *)
  Definition is_delimiter (w : str) : bool :=
    existsb (fun p => str_eqb w (fst p) || str_eqb w (d_close (snd p)) || d_quoting (snd p) && str_eqb w (d_escape (snd p))) table.
  Definition is_break (w : str) : bool := match w with [c] => linebreak c | _ => false end.
  (** tokens: delimiters, and line breaks if some delimiter forbids them *)
  Definition is_token (w : str) : bool := is_delimiter w || existsb (fun p => negb (d_multiline (snd p))) table && is_break w.
  (** w is the longest token that begins r *)
  Definition token_at (r w : str) : Prop :=
    is_token w = true /\ (exists t, r = w ++ t) /\ forall w' t, is_token w' = true -> r = w' ++ t -> length w' <= length w.

  (** What a token means, [inner] being the innermost open delimiter. *)
  Inductive move :=
  | Opens (d : delimiter)        (* it is an opening delimiter *)
  | Closes (x : str)             (* its beginning x is the closing delimiter *)
  | Escapes (x : str)            (* its beginning x is the escape string *)
  | PassOne                      (* its first character is text *)
  | PassOver                     (* it is text *)
  | Wrong.
  Definition begins (a b : str) : bool := str_eqb a (firstn (length a) b).
  Definition share (a b : str) : bool := existsb (fun c => existsb (N.eqb c) b) a.
  Definition decide (inner : option delimiter) (w : str) : move :=
    let unless_opening (other : move) := match opens_any w with Some d => Opens d | None => other end in
    match inner with
    | None => unless_opening (if is_delimiter w then Wrong else PassOver)
    | Some d =>
        if d_quoting d then
          if str_eqb w (d_escape d) then Escapes w
          else if str_eqb w (d_close d) then Closes w
          else if negb (d_multiline d) && is_break w then Wrong
          else if begins (d_close d) w && negb (str_eqb (d_close d) (d_escape d)) then Closes (d_close d)
          else if begins (d_escape d) w then Escapes (d_escape d)
          else if share w (d_close d ++ d_escape d) then PassOne
          else PassOver
        else unless_opening (if begins (d_close d) w then Closes (d_close d) else if is_delimiter w then Wrong else PassOver)
    end.

  (** Where the scanner is: a position of the text, and how many characters it will go back when
      it next reads only a part of a token: the length of the tokens passed over since it last did. *)
  Definition place : Set := nat * nat.
  (** it has read n characters; [whole]: all of the token *)
  Definition read (a : place) (n : nat) (whole : bool) : place := let '(p, back) := a in if whole then (p + n, back) else (p + n - back, 0).
  Definition passed (a : place) (n : nat) : place := let '(p, back) := a in (p + n, back + n).
  Definition final_text (t : str) : list triple := match t with [] => [] | _ => [(t, [], [])] end.

  (** [scan_any s a open t escaped y e]: at a, with the open delimiters [open] (innermost first), the
      text t read since the last delimiter and an escape string just read or not, what remains to be
      yielded is y, and then the exception e. *)
  Inductive scan_any (s : str) : place -> list delimiter -> str -> bool -> list triple -> option exn -> Prop :=
  | any_end a open t escaped : fst a = length s ->
      scan_any s a open t escaped (if escaped then [] else final_text t) (if escaped then Some SyntaxError else None)
  | any_character a c open t escaped y e : nth_error s (fst a) = Some c -> (forall w, ~ token_at (skipn (fst a) s) w) ->
      scan_any s (read a 1 true) open (t ++ [c]) false y e -> scan_any s a open t escaped y e
  | any_escaped a c w open t y e : token_at (skipn (fst a) s) (c :: w) ->
      scan_any s (read a 1 (is_nil w)) open (t ++ [c]) false y e -> scan_any s a open t true y e
  | any_open a w d open t y e : token_at (skipn (fst a) s) w -> decide (hd_error open) w = Opens d ->
      scan_any s (read a (length w) true) (d :: open) [] false y e -> scan_any s a open t false ((t, w, []) :: y) e
  | any_close a w x d open t y e : token_at (skipn (fst a) s) w -> decide (Some d) w = Closes x ->
      scan_any s (read a (length x) (str_eqb x w)) open [] false y e -> scan_any s a (d :: open) t false ((t, [], x) :: y) e
  | any_escape a w x open t y e : token_at (skipn (fst a) s) w -> decide (hd_error open) w = Escapes x ->
      scan_any s (read a (length x) (str_eqb x w)) open (t ++ x) true y e -> scan_any s a open t false y e
  | any_pass_one a c w open t y e : token_at (skipn (fst a) s) (c :: w) -> decide (hd_error open) (c :: w) = PassOne ->
      scan_any s (read a 1 false) open (t ++ [c]) false y e -> scan_any s a open t false y e
  | any_pass_over a w open t y e : token_at (skipn (fst a) s) w -> decide (hd_error open) w = PassOver ->
      scan_any s (passed a (length w)) open (t ++ w) false y e -> scan_any s a open t false y e
  | any_wrong a w open t : token_at (skipn (fst a) s) w -> decide (hd_error open) w = Wrong ->
      scan_any s a open t false [] (Some SyntaxError).

  (** state: delimiters that are open at the start, outermost first *)
  Fixpoint open_all (open : list delimiter) (state : list str) : option (list delimiter) :=
    match state with
    | [] => Some open
    | k :: rest => match decide (hd_error open) k with Opens d => open_all (d :: open) rest | _ => None end
    end.
End AnyLength.

(** Without quoting delimiters the rule is simpler. *)
Section Nesting.
  Context (table : list (str * delimiter)).
  Definition longest_at (r w : str) : Prop :=
    is_delimiter table w = true /\ (exists t, r = w ++ t) /\ forall w' t, is_delimiter table w' = true -> r = w' ++ t -> length w' <= length w.
  (** [scan_nesting open t r y e]: [r] is the rest of the text *)
  Inductive scan_nesting : list delimiter -> str -> str -> list triple -> option exn -> Prop :=
  | nesting_end open t : scan_nesting open t [] (final_text t) None
  | nesting_character open t c r y e : (forall w, ~ longest_at (c :: r) w) -> scan_nesting open (t ++ [c]) r y e -> scan_nesting open t (c :: r) y e
  | nesting_open open t w r d y e : longest_at (w ++ r) w -> opens_any table w = Some d ->
      scan_nesting (d :: open) [] r y e -> scan_nesting open t (w ++ r) ((t, w, []) :: y) e
  | nesting_close open t w d r y e : longest_at (d_close d ++ r) w -> opens_any table w = None -> (exists w', w = d_close d ++ w') ->
      scan_nesting open [] r y e -> scan_nesting (d :: open) t (d_close d ++ r) ((t, [], d_close d) :: y) e
  | nesting_wrong open t w r : longest_at r w -> opens_any table w = None -> (forall d below w', open = d :: below -> w <> d_close d ++ w') ->
      scan_nesting open t r [] (Some SyntaxError).
End Nesting.
