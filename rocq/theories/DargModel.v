(** Model of what split_quoted_strings, Delimiter and split_delimiters of big/text.py do with the
    types of their arguments.  [s] is a str or a bytes; the other arguments are any objects (TypedModel.v).  What the
    functions do with the characters is in DelimModel.v.  Not modelled: whether what is
    yielded has exactly the type str or bytes (it has the type of s, up to subclasses); objects that define
    + or ==, and unhashable objects in [state]. *)
From Verif Require Export DelimModel TypedModel.

Definition other (k : kind) : kind := match k with KStr => KBytes | KBytes => KStr end.
Definition is_bytes_kind (k : kind) : bool := match k with KStr => false | KBytes => true end.
(** big/text.py:1864-1868: the default quotes, a double and a single quote mark, and the default escape, a backslash *)
Definition default_marks : list str := [u """"; u "'"].
Definition default_quotes (k : kind) : obj := OSeq (map (OText k None) default_marks).
Definition default_escape (k : kind) : obj := OText k None backslash.
Definition is_none (o : obj) : bool := match o with ONone => true | _ => false end.

Section Equality.
  (** Python's ==, of which only what it says about str and bytes is known: see equality_ok in DargSpec.v *)
  Context (same : obj -> obj -> bool).

  (** big/text.py:2031-2037, 2040-2047, 2057-2061, 2064-2069: the loops that check quotes and multiline_quotes.  Returned:
      what set() finds afterwards (nothing in an iterator, which the loop has used up), and whether the object has a len(). *)
  Definition marks (k : kind) (o : obj) : result (list str * bool) :=
    let o' := match o, k with OText KBytes _ v, KBytes => OSeq (map (fun c => OText KBytes None [c]) v) | _, _ => o end in
    rbind (iterate o') (fun l => rmap (fun q => match o' with OIter _ => ([], false) | _ => (q, true) end) (check_each k l)).

  (** big/text.py:1937-2133 *)
  Definition split_quoted_strings_py (k : kind) (s : str) (quotes escape multiline_quotes state : obj) : result (generated triple) :=
    let multiline_quotes := if is_none multiline_quotes then OSeq [] else multiline_quotes in
    rbind (if same quotes (default_quotes (other k)) || is_none quotes then Ok (default_marks, true) else marks k quotes) (fun '(q, q_len) =>
    let escape := if same escape (default_escape (other k)) || is_none escape then default_escape k else escape in
    rbind (if truth multiline_quotes then marks k multiline_quotes
           else match escape with
                | OText k' _ _ => if kind_eqb k k' then match multiline_quotes with OOther _ => Err TypeError (* set(multiline_quotes) *) | _ => Ok ([], true) end else Err TypeError
                | _ => Err TypeError
                end) (fun '(m, m_len) =>
    if is_nil (q ++ m) then Err ValueError
    else
      rbind (match state with
             | ONone => Ok []
             | OText k' _ v => if is_nil v then Ok [] else if kind_eqb k k' then if str_in v (q ++ m) then Ok v else Err ValueError else Err TypeError
             | _ => Err TypeError
             end) (fun state =>
      if negb q_len then Err TypeError
      else if has_repeats q then Err ValueError
      else if negb m_len then Err TypeError
      else if has_repeats m then Err ValueError
      else if existsb (fun x => str_in x m) q then Err ValueError
      else
        rbind (if truth escape then match escape with OText k' _ e => if kind_eqb k k' then Ok e else Err TypeError | _ => Err TypeError end else Ok []) (fun e =>
        split_quoted_strings (is_bytes_kind k) s q e m state)))).

  (** big/text.py:2155-2192: a Delimiter object, and the constructor: close may be a Delimiter.  (quoting and multiline are taken to be bools.) *)
  Record delim_obj := mkDelim { v_close : obj; v_escape : obj; v_multiline : bool; v_quoting : bool }.
  Definition Delimiter_py (close : obj + delim_obj) (escape : obj) (multiline quoting : bool) : result delim_obj :=
    match close with
    | inr d => Ok (mkDelim (v_close d) (v_escape d) (v_multiline d) (v_quoting d))
    | inl c =>
        let k := match c with OText KBytes _ _ => KBytes | _ => KStr end in
        if same c (OText k None backslash) then Err ValueError
        else if negb (Bool.eqb (truth escape) quoting) then Err ValueError
        else if negb (quoting || multiline) then Err ValueError
        else Ok (mkDelim c (if truth escape then escape else OText k None []) multiline quoting)
    end.
  (** big/text.py:2208-2214 __eq__ with another Delimiter (with anything else it is False) *)
  Definition delim_eq (a b : delim_obj) : bool :=
    same (v_close a) (v_close b) && same (v_escape a) (v_escape b) && Bool.eqb (v_quoting a) (v_quoting b) && Bool.eqb (v_multiline a) (v_multiline b).
  (** big/text.py:2216-2217 __hash__, for any hash functions; None: hash(close) or hash(escape) raises TypeError *)
  Definition delim_hash (hash : obj -> option Z) (hash_bool : bool -> Z) (a : delim_obj) : option Z :=
    match hash (v_close a), hash (v_escape a) with
    | Some x, Some y => Some (Z.lxor (Z.lxor (Z.lxor x y) (hash_bool (v_quoting a))) (hash_bool (v_multiline a)))
    | _, _ => None
    end.
  (** big/text.py:2219-2220 *)
  Definition delim_copy (a : delim_obj) : result delim_obj := Delimiter_py (inr a) (OText KStr None []) true false.

  (** a mapping from objects to Delimiters and other objects, in order of insertion *)
  Definition mapping := list (obj * (delim_obj + obj)).
  (** big/text.py:2241-2257 *)
  Definition default_mapping (k : kind) : mapping :=
    map (fun p => (OText k None (fst p), inl (mkDelim (OText k None (d_close (snd p))) (OText k None (d_escape (snd p))) (d_multiline (snd p)) (d_quoting (snd p))))) default_delimiters.
  (** == of dicts *)
  Definition value_eq (a b : delim_obj + obj) : bool := match a, b with inl a, inl b => delim_eq a b | inr a, inr b => same a b | _, _ => false end.
  Definition mapping_eq (a b : mapping) : bool :=
    (length a =? length b) && forallb (fun p => existsb (fun q => same (fst p) (fst q) && value_eq (snd p) (snd q)) b) a.
  (** big/text.py:2325-2335: the checks of types for one delimiter, and what is then used of it *)
  Definition check_delim (k : kind) (p : obj * (delim_obj + obj)) : result (str * delimiter) :=
    match p with
    | (OText k1 _ o, inl d) =>
        if negb (kind_eqb k k1) then Err TypeError
        else match v_close d, v_escape d with
             | OText k2 _ c, OText k3 _ e => if kind_eqb k k2 && kind_eqb k k3 then Ok (o, mkDelimiter c e (v_multiline d) (v_quoting d)) else Err TypeError
             | _, _ => Err TypeError
             end
    | _ => Err TypeError
    end.
  Fixpoint check_delims (k : kind) (l : mapping) : result delimiters :=
    match l with
    | [] => Ok []
    | p :: l => rbind (check_delim k p) (fun p => rmap (cons p) (check_delims k l))
    end.
  (** big/text.py:2771-2779: state, as the keys that are looked up; None: something that is no key *)
  Definition state_keys (k : kind) (state : obj) : result (option (list str)) :=
    if truth state
    then rbind (match state with OText KBytes _ v => Ok (map (fun c => OText KBytes None [c]) v) | _ => iterate state end) (fun l =>
         Ok (fold_right (fun o acc => match o, acc with OText k' _ v, Some t => if kind_eqb k k' then Some (v :: t) else None | _, _ => None end) (Some []) l))
    else Ok (Some []).
  (** big/text.py:2677-2781.  A mapping with an element that is no Delimiter raises TypeError (2328), as check_delims. *)
  Definition split_delimiters_py (k : kind) (s : str) (delims : option mapping) (state : obj) : result (generated triple) :=
    let delims := match delims with Some m => if mapping_eq m (default_mapping KStr) || mapping_eq m (default_mapping KBytes) then None else Some m | None => None end in
    rbind (match delims with
           | None => Ok None
           | Some m => if is_nil m then Err ValueError
                       else if existsb (fun p => same (fst p) (OText k None backslash)) m then Err ValueError
                       else rbind (check_delims k m) (fun t => if existsb (fun o => str_in o (nested_closers t)) (openers t) then Err ValueError else Ok (Some t))
           end) (fun table =>
    rbind (state_keys k state) (fun keys =>
    match keys with
    | Some keys => split_delimiters (is_bytes_kind k) s table keys
    | None => Err ValueError
    end)).
End Equality.
