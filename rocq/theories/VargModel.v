(** Model of what big/version.py's Version does with arguments of any type, of its properties, and of the comparison operators of
    a class that defines __eq__ and __lt__ only.  What is done with version strings and with numbers is in VersionModel.v.
    Not modelled: subclasses of int and str that redefine their operations; objects that redefine == so as to be equal to
    None or to a string; the texts of exceptions. *)
From Verif Require Export VersionModel.

(** Python objects.  [OInfo]: an object of the type of sys.version_info, which is a kind of tuple.  [OThing]: any other object. *)
Inductive obj :=
| ONone | OInt (z : Z) | OBool (b : bool) | OStr (s : str) | OTuple (l : list obj)
| OInfo (major minor micro : Z) (l : info_level) (serial : Z) | OThing (n : nat).
(** isinstance(o, int), and then the number: bool is a subclass of int *)
Definition int_value (o : obj) : option Z :=
  match o with OInt z => Some z | OBool b => Some (if b then 1 else 0)%Z | _ => None end.
(** sys.version_info.releaselevel *)
Definition info_name (l : info_level) : str :=
  match l with InfoAlpha => u "alpha" | InfoBeta => u "beta" | InfoCandidate => u "candidate" | InfoFinal => u "final" end.
(** isinstance(o, tuple), and then its elements *)
Definition tuple_items (o : obj) : option (list obj) :=
  match o with
  | OTuple l => Some l
  | OInfo a b c l s => Some [OInt a; OInt b; OInt c; OStr (info_name l); OInt s]
  | _ => None
  end.
Definition is_None (o : obj) : bool := match o with ONone => true | _ => false end.
(** isinstance(o, int) and (o >= 0) *)
Definition nonneg_int (o : obj) : bool := match int_value o with Some z => (0 <=? z)%Z | None => false end.
(** big/version.py:48 _release_level_allowed_values, and "release_level in" it *)
Definition level_name (l : level) : str := match l with Alpha => u "alpha" | Beta => u "beta" | RC => u "rc" | Final => u "final" end.
Definition named_level (o : obj) : option level :=
  match o with
  | OStr s => if str_eqb s (u "alpha") then Some Alpha else if str_eqb s (u "beta") then Some Beta
              else if str_eqb s (u "rc") then Some RC else if str_eqb s (u "final") then Some Final else None
  | _ => None
  end.
(** isinstance(element, str) and element and _re_is_valid_local_segment(element) *)
Definition local_element (o : obj) : bool :=
  match o with OStr s => negb (match s with [] => true | _ => false end) && valid_segment s | _ => false end.
Definition empty {A} (l : list A) : bool := match l with [] => true | _ => false end.

(** big/version.py:267-274 a Version object: its properties *)
Record pversion := mkPV { p_epoch : obj; p_release : list obj; p_level : level; p_serial : obj; p_post : obj; p_dev : obj; p_local : obj }.
Definition of_opt (o : option Z) : obj := match o with Some z => OInt z | None => ONone end.
(** the properties of a version made from a string *)
Definition pv_of (v : version) : pversion :=
  mkPV (of_opt (v_epoch v)) (map OInt (v_release v)) (v_level v) (of_opt (v_serial v)) (of_opt (v_post v)) (of_opt (v_dev v))
       (match v_local v with Some l => OTuple (map OStr l) | None => ONone end).

(** big/version.py:100-274 Version(s, epoch=, release=, ...) *)
Definition Version_py (s epoch release release_level serial post dev local : obj) : result pversion :=
  if is_None s then
    if is_None release then Err ValueError
    else if negb (is_None epoch) && negb (nonneg_int epoch) then Err ValueError
    else match tuple_items release with
    | None => Err ValueError
    | Some rel =>
      if empty rel || negb (forallb (fun o => match int_value o with Some _ => true | None => false end) rel) then Err ValueError
      else match (if is_None release_level then Some Final else named_level release_level) with
      | None => Err ValueError
      | Some level =>
        if negb (is_None serial) && negb (nonneg_int serial) then Err ValueError
        else if negb (is_None post || nonneg_int post) then Err ValueError
        else if negb (is_None dev || nonneg_int dev) then Err ValueError
        else if negb (is_None local || match tuple_items local with Some l => negb (empty l) && forallb local_element l | None => false end) then Err ValueError
        else Ok (mkPV (if is_None epoch then OInt 0 else epoch) rel level (if is_None serial then OInt 0 else serial) post dev local)
      end
    end
  else if negb (is_None epoch && is_None release && is_None release_level && is_None serial && is_None post && is_None dev && is_None local) then Err ValueError
  else
    match s with
    | OInfo a b c l n => rmap pv_of (of_version_info a b c l n)
    | OStr s => rmap pv_of (parse s)
    | _ => Err ValueError
    end.

(** big/version.py:276-313 the numbers and strings that are compared: those of an untyped version *)
Definition num_of (o : obj) : option Z := int_value o.
Definition text_of (o : obj) : str := match o with OStr s => s | _ => [] end.
Definition erase (p : pversion) : version :=
  mkV (num_of (p_epoch p)) (map (fun o => match int_value o with Some z => z | None => 0%Z end) (p_release p)) (p_level p)
      (num_of (p_serial p)) (num_of (p_post p)) (num_of (p_dev p))
      (match tuple_items (p_local p) with Some l => Some (map text_of l) | None => None end).
(** str(o) of an int or a bool *)
Definition str_num (o : obj) : str :=
  match o with OInt z => str_int z | OBool true => u "True" | OBool false => u "False" | _ => [] end.
Definition true_num (o : obj) : bool := match int_value o with Some z => negb (z =? 0)%Z | None => false end.
(** big/version.py:315-341 str(v) *)
Definition str_py (p : pversion) : result str :=
  let final := match p_level p with Final => true | _ => false end in
  if final && true_num (p_serial p) then Err AssertionError
  else Ok ((if true_num (p_epoch p) then str_num (p_epoch p) ++ u "!" else [])
    ++ join (u ".") (map str_num (p_release p))
    ++ level_str (p_level p)
    ++ (if true_num (p_serial p) then str_num (p_serial p) else [])
    ++ (if is_None (p_post p) then [] else u ".post" ++ str_num (p_post p))
    ++ (if is_None (p_dev p) then [] else u ".dev" ++ str_num (p_dev p))
    ++ (match tuple_items (p_local p) with Some (x :: l) => u "+" ++ join (u ".") (map text_of (x :: l)) | _ => [] end)).
(** repr() of a str without quotes, backslashes and unprintable characters *)
Definition quote (s : str) : str := u "'" ++ s ++ u "'".
(** big/version.py:315-316 repr(v) *)
Definition repr_py (p : pversion) : result str := rmap (fun t => u "Version(" ++ quote t ++ u ")") (str_py p).

(** ---- operators ---- *)
(** An operand: a Version, or an object whose comparison methods return NotImplemented for a Version. *)
Inductive operand := IsVersion (v : pversion) | IsOther (o : obj).
Inductive op := Eq_ | Ne_ | Lt_ | Gt_ | Le_ | Ge_.
(** the operator tried on the right operand when the left one's method returns NotImplemented *)
Definition reflect (o : op) : op := match o with Eq_ => Eq_ | Ne_ => Ne_ | Lt_ => Gt_ | Gt_ => Lt_ | Le_ => Ge_ | Ge_ => Le_ end.
(** big/version.py:343-351 the methods of Version: __eq__ and __lt__; __ne__ is object's, which inverts __eq__; object's __gt__, __le__ and
    __ge__ return NotImplemented (None here) *)
Definition method (o : op) (v : pversion) (w : operand) : option (result bool) :=
  match o, w with
  | Eq_, IsVersion w => Some (Ok (v_eq (erase v) (erase w)))
  | Eq_, IsOther _ => Some (Ok false)
  | Ne_, IsVersion w => Some (Ok (negb (v_eq (erase v) (erase w))))
  | Ne_, IsOther _ => Some (Ok true)
  | Lt_, IsVersion w => Some (Ok (v_lt (erase v) (erase w)))
  | Lt_, IsOther _ => Some (Err TypeError)
  | _, _ => None
  end.
(** [same]: the operands are the same object *)
Definition compare_py (o : op) (same : bool) (a b : operand) : result bool :=
  match (match a with IsVersion v => method o v b | IsOther _ => None end) with
  | Some r => r
  | None => match (match b with IsVersion w => method (reflect o) w a | IsOther _ => None end) with
            | Some r => r
            | None => match o with Eq_ => Ok same | Ne_ => Ok (negb same) | _ => Err TypeError end
            end
  end.
