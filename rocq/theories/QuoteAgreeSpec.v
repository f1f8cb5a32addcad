(** How the output of split_delimiters, used with quote marks only, reads as quoted strings. *)
From Verif Require Import PyBase PyStr.

(** [inside]: None outside quotes, Some q inside, where q is the opening mark to show.
    [e]: how the generator ended.  A string that is left open when the text ends is shown
    without a closing mark, even if it is empty. *)
Fixpoint segments_of (inside : option str) (l : list (str * str * str)) (e : option exn) : list (str * str * str) :=
  match l with
  | [] => match inside, e with Some q, None => [(q, [], [])] | _, _ => [] end
  | (text, opening, closing) :: rest =>
      match opening, closing with
      | _ :: _, _ => match text with [] => [] | _ => [([], text, [])] end ++ segments_of (Some opening) rest e
      | [], _ :: _ => (match inside with Some q => q | None => [] end, text, closing) :: segments_of None rest e
      | [], [] => [(match inside with Some q => q | None => [] end, text, [])]
      end
  end.
