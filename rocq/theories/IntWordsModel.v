(** Model of big/text.py: int_to_words.  Not modelled: the type check of i. *)
From Verif Require Export PyStr.
Open Scope Z_scope.

(** big/text.py:4345-4353 *)
Definition first_twenty_ordinal : list str :=
  [u "zeroth"; u "first"; u "second"; u "third"; u "fourth"; u "fifth"; u "sixth"; u "seventh"; u "eighth"; u "ninth"; u "tenth";
   u "eleventh"; u "twelveth"; u "thirteenth"; u "fourteenth"; u "fifteenth"; u "sixteenth"; u "seventeenth"; u "eighteenth"; u "nineteenth"].
(** big/text.py:4354-4362 *)
Definition first_twenty_cardinal : list str :=
  [u "zero"; u "one"; u "two"; u "three"; u "four"; u "five"; u "six"; u "seven"; u "eight"; u "nine"; u "ten";
   u "eleven"; u "twelve"; u "thirteen"; u "fourteen"; u "fifteen"; u "sixteen"; u "seventeen"; u "eighteen"; u "nineteen"].
(** big/text.py:4364-4367; the first two entries are None *)
Definition tens : list (option str) :=
  [None; None; Some (u "twenty"); Some (u "thirty"); Some (u "forty"); Some (u "fifty"); Some (u "sixty"); Some (u "seventy"); Some (u "eighty"); Some (u "ninety")].
(** big/text.py:4405-4412 *)
Definition small_quantities : list (Z * str) :=
  [(10 ^ 9, u " billion"); (10 ^ 6, u " million"); (10 ^ 3, u " thousand"); (10 ^ 2, u " hundred")].
(** big/text.py:4379-4403 *)
Definition quantities : list (Z * str) :=
  [(10 ^ 63, u " vigintillion"); (10 ^ 60, u " novemdecillion"); (10 ^ 57, u " octodecillion"); (10 ^ 54, u " septdecillion"); (10 ^ 51, u " sexdecillion");
   (10 ^ 48, u " qindecillion"); (10 ^ 45, u " quattuordecillion"); (10 ^ 42, u " tredecillion"); (10 ^ 39, u " duodecillion"); (10 ^ 36, u " undecillion");
   (10 ^ 33, u "   decillion"); (10 ^ 30, u "   nonillion"); (10 ^ 27, u "   octillion"); (10 ^ 24, u "  septillion"); (10 ^ 21, u "  sextillion");
   (10 ^ 18, u " quintillion"); (10 ^ 15, u " quadrillion"); (10 ^ 12, u " trillion")] ++ small_quantities.

(** big/text.py:4414-4421: the loop; [words upper] is the recursive call; [strings] in order *)
Fixpoint quantity_loop (words : Z -> result str) (flowery : bool) (qs : list (Z * str)) (i : Z) (strings : list str) (spacer : str)
    : result (Z * list str * str) :=
  match qs with
  | [] => Ok (i, strings, spacer)
  | (threshold, english) :: qs =>
      if threshold <=? i then
        match words (i / threshold) with
        | Err e => Err e
        | Ok w => quantity_loop words flowery qs (i mod threshold) (strings ++ [spacer; w; english]) (if flowery then u ", " else u " ")
        end
      else quantity_loop words flowery qs i strings spacer
  end.
Definition nonempty {A} (l : list A) : bool := match l with [] => false | _ => true end.
Definition last_char (s : str) : chr := List.last s 0%N.
(** big/text.py:4423-4443: the rest *)
Definition finish (flowery ordinal : bool) (i : Z) (strings : list str) (spacer : str) : result (list str) :=
  let first_twenty := if ordinal then first_twenty_ordinal else first_twenty_cardinal in
  let spacer := if nonempty strings then (if flowery then u " and " else u " ") else spacer in
  match (if 20 <=? i then
           match py_index tens (i / 10) with
           | Ok (Some t) => Ok (i mod 10, strings ++ [spacer; t], u "-")
           | Ok None => Err TypeError                                     (* "".join of None *)
           | Err e => Err e
           end
         else Ok (i, strings, spacer)) with
  | Err e => Err e
  | Ok (i, strings, spacer) =>
      if negb (i =? 0) || negb (nonempty strings) then
        match py_index first_twenty i with Ok w => Ok (strings ++ [spacer; w]) | Err e => Err e end
      else if ordinal && nonempty strings then
        let s := List.last strings [] in
        if (last_char s =? 121)%N then Ok (removelast strings ++ [removelast s ++ u "ie"; u "th"])
        else Ok (strings ++ [u "th"])
      else Ok strings
  end.
(** big/text.py:4311-4443 int_to_words; the recursion is on fuel (each level of the recursion
    needs a number at least 100 times larger; four levels are enough, see the proofs) *)
Fixpoint int_to_words_fuel (fuel : nat) (i : Z) (flowery ordinal : bool) : result str :=
  match fuel with
  | O => Err RecursionError
  | S fuel =>
      if (10 ^ 75 <=? i) || (i <=? - 10 ^ 75) then Ok (str_int i)
      else
        let is_negative := i <? 0 in
        let i := if is_negative then - i else i in
        match (if 100 <=? i then
                 quantity_loop (fun upper => int_to_words_fuel fuel upper flowery false) flowery
                   (if 10 ^ 12 <=? i then quantities else small_quantities) i [] []
               else Ok (i, [], [])) with
        | Err e => Err e
        | Ok (i, strings, spacer) =>
            match finish flowery ordinal i strings spacer with
            | Err e => Err e
            | Ok strings => Ok (concat (if is_negative then u "negative " :: strings else strings))
            end
        end
  end.
Definition int_to_words (i : Z) (flowery ordinal : bool) : result str := int_to_words_fuel 4 i flowery ordinal.
