(** Model of big/text.py:122-306, the tuples of separators that are not in SplitModel. *)
From Verif Require Export SplitModel DelimModel EncodeModel.

(** lines 240-243 *)
Definition ascii_linebreaks := ascii_only unicode_linebreaks.
Definition ascii_linebreaks_without_crlf := without_crlf ascii_linebreaks.
(** lines 193-196: bytes_whitespace = encode_strings(ascii_whitespace), a tuple of bytes *)
Definition bytes_whitespace_value : result val := encode_strings (fun _ _ => Err TypeError) (VTuple 0 (map (VStr 0) ascii_whitespace)) None.
Definition bytes_whitespace : list str :=
  match bytes_whitespace_value with Ok (VTuple _ l) => flat_map (fun v => match v with VBytes _ b => [b] | _ => [] end) l | _ => [] end.
Definition bytes_whitespace_without_crlf := without_crlf bytes_whitespace.
(** lines 284-300: bytes_linebreaks, where two calls of bytes.splitlines decide about \v and \f.
    ('\v' and '\f' would be added as str.) *)
Definition bytes_linebreaks_built : list str :=
  [[10%N]] ++ (if length (splitlines true [120; 11; 120]%N) =? 2 then [[11%N]] else []) ++
  (if length (splitlines true [120; 12; 120]%N) =? 2 then [[12%N]] else []) ++ [[13%N]; [13; 10]%N].
