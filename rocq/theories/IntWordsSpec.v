(** An independent reader of English numerals. *)
From Verif Require Export PyStr.
Open Scope Z_scope.

(** the words of a text: it is divided at blanks, commas and hyphens *)
Definition divider (c : chr) : bool := ((c =? 32) || (c =? 44) || (c =? 45))%N.
Definition words_of (s : str) : list str := filter (fun w => match w with [] => false | _ => true end) (split1 divider s).

Definition lookup (dict : list (str * Z)) (w : str) : option Z := option_map snd (find (fun p => str_eqb w (fst p)) dict).
Definition units : list (str * Z) :=
  [(u "zero", 0); (u "one", 1); (u "two", 2); (u "three", 3); (u "four", 4); (u "five", 5); (u "six", 6); (u "seven", 7); (u "eight", 8); (u "nine", 9);
   (u "ten", 10); (u "eleven", 11); (u "twelve", 12); (u "thirteen", 13); (u "fourteen", 14); (u "fifteen", 15); (u "sixteen", 16); (u "seventeen", 17);
   (u "eighteen", 18); (u "nineteen", 19); (u "twenty", 20); (u "thirty", 30); (u "forty", 40); (u "fifty", 50); (u "sixty", 60); (u "seventy", 70);
   (u "eighty", 80); (u "ninety", 90)].
(** the short scale *)
Definition scales : list (str * Z) :=
  [(u "hundred", 10 ^ 2); (u "thousand", 10 ^ 3); (u "million", 10 ^ 6); (u "billion", 10 ^ 9); (u "trillion", 10 ^ 12); (u "quadrillion", 10 ^ 15);
   (u "quintillion", 10 ^ 18); (u "sextillion", 10 ^ 21); (u "septillion", 10 ^ 24); (u "octillion", 10 ^ 27); (u "nonillion", 10 ^ 30); (u "decillion", 10 ^ 33);
   (u "undecillion", 10 ^ 36); (u "duodecillion", 10 ^ 39); (u "tredecillion", 10 ^ 42); (u "quattuordecillion", 10 ^ 45); (u "quindecillion", 10 ^ 48);
   (u "sexdecillion", 10 ^ 51); (u "septdecillion", 10 ^ 54); (u "octodecillion", 10 ^ 57); (u "novemdecillion", 10 ^ 60); (u "vigintillion", 10 ^ 63)].
(** spellings this library uses that are not English *)
Definition misspelled_scales : list (str * Z) := [(u "qindecillion", 10 ^ 48)].
Definition misspelled_ordinals : list (str * str) := [(u "twelveth", u "twelve")].

Section Reader.
  Context (scales : list (str * Z)).
  Definition sum (l : list Z) : Z := fold_right Z.add 0 l.
  (** A scale word multiplies everything smaller that was read directly before it. *)
  Fixpoint smaller (q : Z) (l : list Z) : list Z * list Z :=
    match l with
    | x :: t => if x <? q then let '(a, b) := smaller q t in (x :: a, b) else ([], l)
    | [] => ([], [])
    end.
  (** reading a word; the parts read so far, last one first *)
  Definition read_word (w : str) (parts : list Z) : option (list Z) :=
    if str_eqb w (u "and") then Some parts
    else match lookup units w with
         | Some n => Some (n :: parts)
         | None => match lookup scales w with
                   | Some q => match smaller q parts with ([], _) => None | (a, b) => Some (sum a * q :: b) end
                   | None => None
                   end
         end.
  Fixpoint read_words (ws : list str) (parts : list Z) : option (list Z) :=
    match ws with
    | [] => Some parts
    | w :: t => match read_word w parts with Some parts => read_words t parts | None => None end
    end.
  Definition read_positive (ws : list str) : option Z :=
    match read_words ws [] with Some [] => None | Some parts => Some (sum parts) | None => None end.
  Definition read_list (ws : list str) : option Z :=
    match ws with
    | w :: t => if str_eqb w (u "negative") then option_map Z.opp (read_positive t) else read_positive ws
    | [] => None
    end.
  (** the number a cardinal numeral names *)
  Definition read (s : str) : option Z := read_list (words_of s).
End Reader.

Definition irregular_ordinals : list (str * str) :=
  [(u "first", u "one"); (u "second", u "two"); (u "third", u "three"); (u "fifth", u "five"); (u "eighth", u "eight"); (u "ninth", u "nine"); (u "twelfth", u "twelve");
   (u "twentieth", u "twenty"); (u "thirtieth", u "thirty"); (u "fortieth", u "forty"); (u "fiftieth", u "fifty"); (u "sixtieth", u "sixty");
   (u "seventieth", u "seventy"); (u "eightieth", u "eighty"); (u "ninetieth", u "ninety")].
Section OrdinalReader.
  Context (scales : list (str * Z)) (irregular : list (str * str)).
  (** the cardinal of an ordinal word: an irregular one, or a number word without an irregular ordinal and -th *)
  Definition cardinal_of (w : str) : option str :=
    match find (fun p => str_eqb w (fst p)) irregular with
    | Some p => Some (snd p)
    | None => match rev w with
              | 104%N :: 116%N :: r => if existsb (fun p => str_eqb (rev r) (snd p)) irregular then None else match lookup units (rev r), lookup scales (rev r) with None, None => None | _, _ => Some (rev r) end
              | _ => None
              end
    end.
  (** the number an ordinal numeral names: only its last word is an ordinal *)
  Definition read_ordinal (s : str) : option Z :=
    match rev (words_of s) with
    | [] => None
    | w :: r => match cardinal_of w with Some c => read_list scales (rev r ++ [c]) | None => None end
    end.
End OrdinalReader.
