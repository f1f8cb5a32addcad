(** Model of big/version.py: Version.  Python's limit on the length of int() literals
    (4300 digits by default) is not modelled. *)
From Verif Require Export Regex.

(** re.IGNORECASE on str patterns: [ci c d] - the lower-case ASCII pattern letter [c]
    matches the subject character [d].  Besides ASCII case this relates i with U+0130 and
    U+0131, s with U+017F and k with U+212A. *)
Definition ci (c d : chr) : bool :=
  ((c =? d) || ((between 97 122 c) && (d =? c - 32))
   || ((c =? 105) && ((d =? 304) || (d =? 305)))
   || ((c =? 115) && (d =? 383)) || ((c =? 107) && (d =? 8490)))%N.
Definition lit (s : str) : re := Lit ci s.
Definition ch (c : chr) : re := Chr (fun d => (d =? c)%N).        (* punctuation *)
(** [a-z0-9] under IGNORECASE *)
Definition is_alnum (d : chr) : bool :=
  (is_digit d || between 97 122 d || between 65 90 d || (d =? 304) || (d =? 305) || (d =? 383) || (d =? 8490))%N.
Definition is_sep (d : chr) : bool := ((d =? 45) || (d =? 95) || (d =? 46))%N.   (* [-_\.] *)

(** big/version.py:58-97 VERSION_PATTERN.  Groups: 0 epoch, 1 release, 2 pre_l, 3 pre_n,
    4 post_n1, 5 post_l, 6 post_n2, 7 dev_l, 8 dev_n, 9 local.  (pre, post and dev, and
    the unnamed group, are captured by the pattern but never used; ^ is redundant with
    match().) *)
Definition Digits := Plus (Chr is_digit).
Definition Sep := Opt (Chr is_sep).
Definition R_epoch := Opt (Seq (Grp 0 Digits) (ch 33%N)).                  (* ! *)
Definition R_release := Grp 1 (Seq Digits (Star (Seq (ch 46%N) Digits))).
Definition pre_labels : list str := [u "a"; u "b"; u "c"; u "rc"; u "alpha"; u "beta"; u "pre"; u "preview"].
Definition alts (l : list str) : re :=
  match map lit l with [] => Chr (fun _ => false) | r :: t => fold_left Alt t r end.
Definition R_pre := Opt (Seq Sep (Seq (Grp 2 (alts pre_labels)) (Seq Sep (Opt (Grp 3 Digits))))).
Definition R_post := Opt (Alt (Seq (ch 45%N) (Grp 4 Digits))
                              (Seq Sep (Seq (Grp 5 (alts [u "post"; u "rev"; u "r"])) (Seq Sep (Opt (Grp 6 Digits)))))).
Definition R_dev := Opt (Seq Sep (Seq (Grp 7 (lit (u "dev"))) (Seq Sep (Opt (Grp 8 Digits))))).
Definition R_local := Opt (Seq (ch 43%N) (Grp 9 (Seq (Plus (Chr is_alnum)) (Star (Seq (Chr is_sep) (Plus (Chr is_alnum))))))).
Definition version_re : re :=
  Seq (Star (Chr is_space)) (Seq (Opt (lit (u "v"))) (Seq R_epoch (Seq R_release (Seq R_pre (Seq R_post (Seq R_dev
    (Seq R_local (Seq (Star (Chr is_space)) Eol)))))))).

(** 'alpha' | 'beta' | 'rc' | 'final' *)
Inductive level := Alpha | Beta | RC | Final.

(** big/version.py:285-292 the stored fields *)
Record version := mkV {
  v_epoch : option Z; v_release : list Z; v_level : level; v_serial : option Z;
  v_post : option Z; v_dev : option Z; v_local : option (list str)
}.

(** big/version.py:204-207: "while (len(release) > 1) and (not release[-1]): release.pop()" *)
Fixpoint clip_rev (l : list Z) : list Z :=
  match l with
  | [] => []
  | x :: t => match t with [] => l | _ => if (x =? 0)%Z then clip_rev t else l end
  end.
Definition clip (l : list Z) : list Z := rev (clip_rev (rev l)).

(** big/version.py:49-50, 210-217 the normalized label, None when the assert fails *)
Definition level_of (s : str) : option level :=
  if str_eqb s (u "a") || str_eqb s (u "alpha") then Some Alpha
  else if str_eqb s (u "b") || str_eqb s (u "beta") then Some Beta
  else if str_eqb s (u "c") || str_eqb s (u "pre") || str_eqb s (u "preview") || str_eqb s (u "rc") then Some RC
  else None.
Definition is_none {A} (o : option A) : bool := match o with None => true | Some _ => false end.

(** big/version.py:176-258 Version(s) for a str [s] *)
Definition parse (s : str) : result version :=
  match re_match version_re s with
  | None => Err ValueError
  | Some (g, _) =>
      let get i := group g i in
      match get 1 with
      | None => Err AttributeError                       (* None.split *)
      | Some rel =>
          let release := clip (map int_of (split1 (fun c => (c =? 46)%N) rel)) in
          match (match get 2 with None => Some Final | Some l => level_of l end) with
          | None => Err AssertionError
          | Some level =>
              let final := match level with Final => true | _ => false end in
              if final && negb (is_none (get 3)) then Err AssertionError
              else
              match (match get 4 with
                     | Some n => if is_none (get 5) && is_none (get 6) then Ok (Some n) else Err AssertionError
                     | None => match get 6 with
                               | Some n => if is_none (get 5) then Err AssertionError else Ok (Some n)
                               | None => Ok None
                               end
                     end) with
              | Err e => Err e
              | Ok post =>
                  if negb (is_none (get 8)) && is_none (get 7) then Err AssertionError
                  else
                  Ok (mkV (option_map int_of (get 0)) release level (option_map int_of (get 3))
                          (option_map int_of post) (option_map int_of (get 8))
                          (option_map (split1 is_sep) (get 9)))
              end
          end
      end
  end.

(** "^[A-Za-z0-9]+$" matched from the start: $ also matches before a final newline *)
Definition is_ascii_alnum (d : chr) : bool := (is_digit d || between 97 122 d || between 65 90 d)%N.
Definition valid_segment (s : str) : bool :=
  match re_match (Seq (Plus (Chr is_ascii_alnum)) Eol) s with Some _ => true | None => false end.
Definition nonneg (o : option Z) : bool := match o with None => true | Some z => (0 <=? z)%Z end.
(** big/version.py:117-150 Version(release=..., ...) for arguments of the right types.
    [None] is the keyword's default. *)
Definition of_fields (epoch : option Z) (release : option (list Z)) (release_level : option level)
    (serial post dev : option Z) (local : option (list str)) : result version :=
  match release with
  | None => Err ValueError
  | Some rel =>
      if negb (nonneg epoch) then Err ValueError
      else if is_none (hd_error rel) then Err ValueError
      else if negb (nonneg serial) then Err ValueError
      else if negb (nonneg post) then Err ValueError
      else if negb (nonneg dev) then Err ValueError
      else if match local with None => false | Some l => is_none (hd_error l) || negb (forallb valid_segment l) end
      then Err ValueError
      else Ok (mkV (Some (match epoch with None => 0%Z | Some e => e end)) rel
                   (match release_level with None => Final | Some l => l end)
                   (Some (match serial with None => 0%Z | Some n => n end)) post dev local)
  end.

(** big/version.py:274-313 the comparison tuple *)
Inductive dev_key := DevNum (z : Z) | DevInf.                       (* int, or math.inf *)
Inductive local_key := LStr (s : str) | LInt (z : Z).               (* (1, element) or (2, int(element)) *)
Definition level_int (l : level) : Z := match l with Alpha => -3 | Beta => -2 | RC => -1 | Final => 0 end%Z.
(** str.isdigit on the strings a local segment can be (for U+00B2 and the like, which
    never match, isdigit would also hold) *)
Definition is_digits (s : str) : bool := match s with [] => false | _ => forallb is_digit s end.
Record vkey := mkK {
  k_epoch : Z; k_release : list Z; k_level : Z; k_serial : Z; k_post : Z; k_dev : dev_key; k_local : list local_key }.
Definition local_seg (e : str) : local_key := if is_digits e then LInt (int_of e) else LStr e.
Definition key (v : version) : vkey :=
  mkK (match v_epoch v with None => 0 | Some z => z end)%Z (v_release v) (level_int (v_level v))
      (match v_serial v with None => 0 | Some z => z end)%Z (match v_post v with None => -1 | Some z => z end)%Z
      (match v_dev v with None => DevInf | Some z => DevNum z end)
      (match v_local v with None => [] | Some l => map local_seg l end).

(** Comparison of a pair of values by Python's == and <, combined as for tuples *)
Definition cmp_then (c d : comparison) : comparison := match c with Eq => d | _ => c end.
Fixpoint cmp_list {A} (f : A -> A -> comparison) (a b : list A) : comparison :=
  match a, b with
  | [], [] => Eq
  | [], _ :: _ => Lt
  | _ :: _, [] => Gt
  | x :: s, y :: t => cmp_then (f x y) (cmp_list f s t)
  end.
Definition cmp_dev (a b : dev_key) : comparison :=
  match a, b with
  | DevNum x, DevNum y => (x ?= y)%Z | DevNum _, DevInf => Lt | DevInf, DevNum _ => Gt | DevInf, DevInf => Eq
  end.
Definition cmp_local (a b : local_key) : comparison :=
  match a, b with
  | LInt x, LInt y => (x ?= y)%Z | LStr x, LStr y => cmp_list N.compare x y
  | LStr _, LInt _ => Lt | LInt _, LStr _ => Gt
  end.
Definition cmp_key (a b : vkey) : comparison :=
  cmp_then (k_epoch a ?= k_epoch b)%Z (cmp_then (cmp_list Z.compare (k_release a) (k_release b))
  (cmp_then (k_level a ?= k_level b)%Z (cmp_then (k_serial a ?= k_serial b)%Z (cmp_then (k_post a ?= k_post b)%Z
  (cmp_then (cmp_dev (k_dev a) (k_dev b)) (cmp_list cmp_local (k_local a) (k_local b))))))).

(** big/version.py:343-351 __eq__ and __lt__ between Version objects *)
Definition v_eq (a b : version) : bool := match cmp_key (key a) (key b) with Eq => true | _ => false end.
Definition v_lt (a b : version) : bool := match cmp_key (key a) (key b) with Lt => true | _ => false end.

(** big/version.py:354-363 __hash__, with Python's hash of each kind of stored value as a
    parameter; [hxor] is ^ *)
Record hasher := mkHash {
  h_none : Z; h_int : Z -> Z; h_release : list Z -> Z; h_level : level -> Z; h_local : list str -> Z }.
Definition h_opt {A} (H : hasher) (f : A -> Z) (o : option A) : Z := match o with None => h_none H | Some x => f x end.
Definition v_hash (H : hasher) (v : version) : Z :=
  Z.lxor (Z.lxor (Z.lxor (Z.lxor (Z.lxor (Z.lxor (h_opt H (h_int H) (v_epoch v)) (h_release H (v_release v)))
    (h_level H (v_level v))) (h_opt H (h_int H) (v_serial v))) (h_opt H (h_int H) (v_post v)))
    (h_opt H (h_int H) (v_dev v))) (h_opt H (h_local H) (v_local v)).

(** big/version.py:315-341 __str__ *)
Definition level_str (l : level) : str := match l with Alpha => u "a" | Beta => u "b" | RC => u "rc" | Final => [] end.
Definition truthy (o : option Z) : bool := match o with Some z => negb (z =? 0)%Z | None => false end.
Definition opt_str (o : option Z) : str := match o with Some z => str_int z | None => [] end.
Definition show (v : version) : result str :=
  let final := match v_level v with Final => true | _ => false end in
  if final && truthy (v_serial v) then Err AssertionError
  else Ok ((if truthy (v_epoch v) then opt_str (v_epoch v) ++ u "!" else [])
    ++ join (u ".") (map str_int (v_release v))
    ++ level_str (v_level v)
    ++ (if truthy (v_serial v) then opt_str (v_serial v) else [])
    ++ (match v_post v with Some n => u ".post" ++ str_int n | None => [] end)
    ++ (match v_dev v with Some n => u ".dev" ++ str_int n | None => [] end)
    ++ (match v_local v with Some (x :: l) => u "+" ++ join (u ".") (x :: l) | _ => [] end)).

(** big/version.py:379-394 Version.major, minor, micro *)
Definition v_major (v : version) : result Z := match v_release v with x :: _ => Ok x | [] => Err IndexError end.
Definition v_minor (v : version) : Z := match v_release v with _ :: x :: _ => x | _ => 0%Z end.
Definition v_micro (v : version) : Z := match v_release v with _ :: _ :: x :: _ => x | _ => 0%Z end.
(** sys.version_info.releaselevel: 'alpha' | 'beta' | 'candidate' | 'final' *)
Inductive info_level := InfoAlpha | InfoBeta | InfoCandidate | InfoFinal.
(** big/version.py:54-55, 166-175 Version(sys.version_info): the string that is parsed.
    'candidate' becomes 'rc' and 'final' becomes '', the others are left alone. *)
Definition info_level_str (l : info_level) : str :=
  match l with InfoAlpha => u "alpha" | InfoBeta => u "beta" | InfoCandidate => u "rc" | InfoFinal => [] end.
Definition version_info_str (major minor micro : Z) (l : info_level) (serial : Z) : str :=
  str_int major ++ u "." ++ str_int minor ++ u "." ++ str_int micro ++
  (match info_level_str l with [] => [] | rl => rl ++ (if (serial =? 0)%Z then [] else str_int serial) end).
Definition of_version_info (major minor micro : Z) (l : info_level) (serial : Z) : result version :=
  parse (version_info_str major minor micro l serial).
