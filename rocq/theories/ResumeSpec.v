(** Cutting a text into parts and parsing them one after the other: what a caller of
    split_quoted_strings and split_delimiters does to pass the right state on, and what the
    results should be, independently of the code. *)
From Verif Require Import PyStr.
Notation tuple3 := (str * str * str)%type.

(** * split_quoted_strings *)
(** The quote mark that is open after a call that was given [state] and yielded [out]: that of
    the last tuple, if it has no trailing quote mark.  (When there is one tuple only and the
    call was given a state, its leading mark is empty, see the documentation of state.) *)
Definition open_after (state : str) (out : list tuple3) : str :=
  match rev out with
  | [] => state
  | (lead, _, trail) :: before =>
      match trail with
      | _ :: _ => []
      | [] => match before, state with [], _ :: _ => state | _, _ => lead end
      end
  end.
(** The tuples of two parts put together: where the first part stops without a trailing
    quote mark and the second one starts without a leading one, two tuples become one. *)
Definition glue (a b : list tuple3) : list tuple3 :=
  match rev a, b with
  | (lead, text, []) :: before, ([], text', trail') :: after => rev before ++ (lead, text ++ text', trail') :: after
  | _, _ => a ++ b
  end.
(** the number of characters e at the end of s *)
Fixpoint leading_run (e : chr) (s : str) : nat := match s with c :: t => if (c =? e)%N then S (leading_run e t) else 0 | [] => 0 end.
Definition trailing_run (e : chr) (s : str) : nat := leading_run e (rev s).
(** the cut between a and b does not separate an escape character from the quote mark or
    escape character that it escapes *)
Definition cut_ok (quotes : list chr) (escape : option chr) (a b : str) : Prop :=
  match escape, b with
  | Some e, d :: _ => Nat.Odd (trailing_run e a) -> ~ In d quotes /\ d <> e
  | _, _ => True
  end.
Fixpoint cuts_ok (quotes : list chr) (escape : option chr) (done : str) (parts : list str) : Prop :=
  match parts with [] => True | p :: t => cut_ok quotes escape done (concat parts) /\ cuts_ok quotes escape (done ++ p) t end.
(** Parsing the parts one after the other. *)
Section Feed.
  Context (parse : str -> str -> result (list tuple3 * option exn)).
  Fixpoint feed (state : str) (sofar : list tuple3) (parts : list str) : result (list tuple3 * option exn) :=
    match parts with
    | [] => Ok (sofar, None)
    | p :: t =>
        match parse p state with
        | Err x => Err x
        | Ok (out, Some x) => Ok (glue sofar out, Some x)
        | Ok (out, None) => feed (open_after state out) (glue sofar out) t
        end
    end.
End Feed.

(** * split_delimiters *)
(** "Use a list as a stack to track the state of split_delimiters.  Push open delimiters with
    .append, and pop them with .pop whenever you see a close delimiter." *)
Fixpoint track (state : list str) (out : list tuple3) : list str :=
  match out with
  | [] => state
  | (_, open, close) :: t => track (match close with _ :: _ => removelast state | [] => match open with _ :: _ => state ++ [open] | [] => state end end) t
  end.
(** a last tuple with neither an open nor a close delimiter is continued by the next one *)
Definition splice (a b : list tuple3) : list tuple3 :=
  match rev a, b with
  | (text, [], []) :: before, (text', open, close) :: after => rev before ++ (text ++ text', open, close) :: after
  | _, _ => a ++ b
  end.
(** all tuples but a last one with neither *)
Definition finished (a : list tuple3) : list tuple3 := match rev a with (_, [], []) :: before => rev before | _ => a end.
