(** Model of what the functions of big/text.py do with the types of their arguments: multistrip, multisplit, multipartition, normalize_whitespace.
    [s] is a str, a bytes or an instance of a subclass; [separators] and [replacement] are any objects.  What the
    functions do with the characters is in SplitModel.v. *)
From Verif Require Export SplitModel ConstModel.

Inductive kind := KStr | KBytes.
Definition kind_eqb (a b : kind) : bool := match a, b with KStr, KStr | KBytes, KBytes => true | _, _ => false end.
(** str and bytes objects ([cls]: None is str or bytes itself, Some a subclass); None; a collection, which can be iterated any number
    of times and is true unless it is empty; an iterator, which is used up and always true; any other object: not iterable, true or false *)
Inductive obj := OText (k : kind) (cls : option nat) (s : str) | ONone | OSeq (l : list obj) | OIter (l : list obj) | OOther (b : bool).
Definition truth (o : obj) : bool :=
  match o with OText _ _ s => negb (is_nil s) | ONone => false | OSeq l => negb (is_nil l) | OIter _ => true | OOther b => b end.
Definition an_int : obj := OOther true.
(** iter(o) *)
Definition iterate (o : obj) : result (list obj) :=
  match o with
  | OText KStr _ s => Ok (map (fun c => OText KStr None [c]) s)
  | OText KBytes _ s => Ok (map (fun _ => an_int) s)
  | OSeq l | OIter l => Ok l
  | ONone | OOther _ => Err TypeError
  end.
Definition chars (s : str) : list str := map (fun c => [c]) s.

(** big/text.py:926-934, 1779-1786: "for o in separators": a str or bytes like s, and not empty *)
Fixpoint check_each (k : kind) (l : list obj) : result (list str) :=
  match l with
  | [] => Ok []
  | OText k' _ v :: l => if kind_eqb k k' then if is_nil v then Err ValueError else rmap (cons v) (check_each k l) else Err TypeError
  | _ :: l => Err TypeError
  end.
(** big/text.py:1250-1255: only the type *)
Fixpoint check_types (k : kind) (l : list obj) : result (list str) :=
  match l with
  | [] => Ok []
  | OText k' _ v :: l => if kind_eqb k k' then rmap (cons v) (check_types k l) else Err TypeError
  | _ :: l => Err TypeError
  end.

(** big/text.py:896-934: the tuple of separators multistrip works with *)
Definition strip_separators (k : kind) (separators : obj) : result (list str) :=
  match separators with
  | OText k' _ v => if kind_eqb k k' then if is_nil v then Err ValueError else Ok (chars v) else Err TypeError
  | o => if truth o then rbind (iterate o) (check_each k) else Err ValueError
  end.
(** big/text.py:936-955.  Slices of a subclass are str or bytes.  Without separators the pattern is (?:)+, which matches the empty string; with $, the one
    at the end or before a newline at the end. *)
Definition strip_with (k : kind) (cls : option nat) (v : str) (seps : list str) (left right : bool) : result obj :=
  if negb (left || right) then Ok (OText k cls v)
  else match seps with
       | [] => Ok (OText k None (if right then match rev v with 10%N :: t => rev t | _ => v end else v))
       | _ => rmap (fun v' => OText k (if length v' =? length v then cls else None) v') (multistrip v seps left right)
       end.
(** big/text.py:859-955 *)
Definition multistrip_py (k : kind) (cls : option nat) (v : str) (separators : obj) (left right : bool) : result obj :=
  rbind (strip_separators k separators) (fun seps => strip_with k cls v seps left right).

(** big/text.py:1216-1255: the separators, and what is left of them for later use: the loop that checks their types uses up an iterator *)
Definition split_separators (k : kind) (separators : obj) : result (list str) :=
  match separators with
  | OText k' _ v => if kind_eqb k k' then if is_nil v then Err ValueError else Ok (chars v) else Err TypeError
  | ONone => Ok (match k with KStr => str_whitespace | KBytes => bytes_whitespace end)
  | o => if truth o
         then rbind (iterate o) (fun l => rmap (fun seps => match o with OIter _ => [] | _ => seps end) (check_types k l))
         else Err ValueError
  end.

(** re.split with a pattern that matches only the empty string (which it does everywhere): the list of (before, match), the rest *)
Definition split_empty (limit : option nat) (v : str) : list (str * str) * str :=
  let cuts := ([], []) :: map (fun c => ([c], [])) v in
  match limit with None => (cuts, []) | Some n => (firstn n cuts, skipn (n - 1) v) end.
(** big/text.py:972-1092 the generator, as multisplit_gen in SplitModel.v, for any re.split *)
Definition gen_over (split : option nat -> str -> list (str * str) * str) (v : str) (keep : keep_mode) (maxsplit : option Z) (reverse : bool)
    (strip : strip_mode) (re_keep : bool) : list item :=
  let maxsplit := match maxsplit with None => (-1)%Z | Some m => m end in
  if (maxsplit =? 0)%Z then match keep with AsPairs => [Two v []] | _ => [Str v] end
  else
    let limit := if (maxsplit =? -1)%Z then None else Some (Z.to_nat maxsplit) in
    let v := if reverse then rev v else v in
    let p := split limit v in
    let l := if re_keep then with_seps p else without_seps p in
    let l := match strip with
             | Progressive =>
                 let desired_length := (1 + 2 * maxsplit)%Z in
                 let last := last_non_empty l in
                 let l := if (Z.of_nat (last + 2) <? desired_length)%Z then firstn (last + 1) l else l in
                 match keep with KeepFalse => evens l | _ => l end
             | _ => l
             end in
    let l := if reverse then rev (map (@rev chr) l) else l in
    match keep with
    | KeepFalse | Alternating => map Str l
    | _ =>
        let l := if Nat.odd (length l) then l ++ [[]] else l in
        map (fun p => match keep with AsPairs => Two (fst p) (snd p) | _ => Str (fst p ++ snd p) end) (in_pairs l)
    end.
(** re.split(r, s, limit) for any pattern, also one that matches the empty string: an empty match may follow another match, but after an empty match the next
    one must not be empty at the same place.  [again]: the last match was empty and ended here. *)
Definition match_from (again : bool) (r : re) (s : str) : option str := rmatch r s [] (fun t _ => if again && (length t =? length s) then None else Some t).
Fixpoint search_from (again : bool) (r : re) (s : str) : option (str * str * str) :=
  match match_from again r s with
  | Some t => Some ([], firstn (length s - length t) s, t)
  | None => match s with
            | [] => None
            | c :: s => match search_from false r s with Some (before, m, after) => Some (c :: before, m, after) | None => None end
            end
  end.
Fixpoint split_any_fuel (fuel : nat) (r : re) (limit : option nat) (again : bool) (s : str) : list (str * str) * str :=
  match fuel, limit with
  | O, _ | _, Some O => ([], s)
  | S f, _ =>
      match search_from again r s with
      | None => ([], s)
      | Some (before, m, after) => let '(l, y) := split_any_fuel f r (option_map pred limit) (is_nil m) after in ((before, m) :: l, y)
      end
  end.
Definition split_any (r : re) (limit : option nat) (s : str) : list (str * str) * str := split_any_fuel (2 * length s + 1) r limit false s.
(** big/text.py:972-1092.  If the empty string is among the separators, the pattern of big/text.py:820-847 matches it everywhere. *)
Definition gen (v : str) (seps : list str) (keep : keep_mode) (maxsplit : option Z) (reverse separate : bool) (strip : strip_mode) (re_keep : bool) : list item :=
  match seps with
  | [] => gen_over split_empty v keep maxsplit reverse strip re_keep
  | _ => if existsb is_nil seps then gen_over (split_any (separators_re (if reverse then reverse_separators seps else seps) separate)) v keep maxsplit reverse strip re_keep
         else multisplit_gen v seps keep maxsplit reverse separate strip re_keep
  end.

(** what is yielded: an object, or a 2-tuple *)
Inductive oitem := OOne (o : obj) | OTwo (a b : obj).
Definition typed (k : kind) (i : item) : oitem := match i with Str a => OOne (OText k None a) | Two a b => OTwo (OText k None a) (OText k None b) end.
(** with maxsplit=0 it is s itself that is yielded, otherwise what re.split makes *)
Definition yields (k : kind) (cls : option nat) (v : str) (keep : keep_mode) (maxsplit : option Z) (l : list item) : list oitem :=
  match maxsplit with
  | Some 0%Z => match keep with AsPairs => [OTwo (OText k cls v) (OText k None [])] | _ => [OOne (OText k cls v)] end
  | _ => map (typed k) l
  end.
(** big/text.py:1216-1276 *)
Definition multisplit_py (k : kind) (cls : option nat) (v : str) (separators : obj) (keep : keep_mode) (maxsplit : option Z) (reverse separate : bool)
    (strip : strip_mode) : result (list oitem) :=
  rbind (split_separators k separators) (fun seps =>
  let re_keep := match keep with KeepFalse => false | _ => true end in
  match strip with
  | StripFalse => Ok (yields k cls v keep maxsplit (gen v seps keep maxsplit reverse separate strip re_keep))
  | _ =>
      let all := match maxsplit with Some m => (m =? -1)%Z | None => false end in
      let '(strip, go_left, go_right, re_keep) :=
        match strip with
        | Progressive => if all then (StripTrue, true, true, re_keep) else (Progressive, negb reverse, reverse, true)
        | StripRight => (StripRight, false, true, re_keep)
        | StripLeft => (StripLeft, true, false, re_keep)
        | _ => (strip, true, true, re_keep)
        end in
      if existsb is_nil seps then Err ValueError                 (* the check in multistrip *)
      else rbind (strip_with k cls v seps go_left go_right) (fun o =>
        match o with
        | OText _ cls v => let maxsplit := if is_nil v then Some 0%Z else maxsplit in
                           Ok (yields k cls v keep maxsplit (gen v seps keep maxsplit reverse separate strip re_keep))
        | _ => Err TypeError
        end)
  end).

Definition objs (l : list oitem) : list obj := flat_map (fun i => match i with OOne o => [o] | OTwo a b => [a; b] end) l.
(** big/text.py:1322-1345 *)
Definition multipartition_py (k : kind) (cls : option nat) (v : str) (separators : obj) (count : Z) (reverse separate : bool) : result (list obj) :=
  if (count <? 0)%Z then Err ValueError
  else rbind (multisplit_py k cls v separators Alternating (Some count) reverse separate StripFalse) (fun l =>
    let l := objs l in
    let extension := repeat (OText k None []) (2 * Z.to_nat count + 1 - length l) in
    Ok (if reverse then extension ++ l else l ++ extension)).

(** big/text.py:1766-1787; None stands for the built-in tuple *)
Definition normalize_separators (k : kind) (separators : obj) : result (option (list str)) :=
  match separators with
  | ONone => Ok None
  | OText k' _ v => if kind_eqb k k' then Ok (Some (chars v))
                    else rbind (iterate separators) (fun l => match l with [] => Err ValueError | _ => Err TypeError end)
  | o => rbind (iterate o) (fun l => rbind (check_each k l) (fun seps => match seps with [] => Err ValueError | _ => Ok (Some seps) end))
  end.
(** big/text.py:1731-1826 *)
Definition normalize_whitespace_py (k : kind) (v : str) (separators replacement : obj) : result obj :=
  rbind (normalize_separators k separators) (fun seps =>
  rbind (match replacement with
         | ONone => Ok (None, [32%N])
         | OText k' c r => if kind_eqb k k' then Ok (c, r) else Err TypeError
         | _ => Err TypeError
         end) (fun '(c, r) =>
  if is_nil v then Ok (OText k None [])
  else
    let general seps := rmap (fun l => OText k None (join r (strs l))) (multisplit v (Some seps) KeepFalse (Some (-1)%Z) false false StripFalse) in
    match seps, k with
    | Some seps, _ => general seps
    | None, KBytes => general bytes_whitespace_without_crlf
    | None, KStr => if forallb is_space v then Ok (OText k c r)    (* replacement itself *)
                    else rmap (OText k None) (normalize_whitespace v None (Some r))
    end)).
