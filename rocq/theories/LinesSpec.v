(** What lines and the lines modifiers should do, independently of the code. *)
From Verif Require Import PyStr LinesModel.
(* only the records [info] and [pair] are used from LinesModel *)

(** every character of the original line is accounted for *)
Definition accounted (p : pair) : Prop := i_leading (fst p) ++ snd p ++ i_trailing (fst p) ++ i_end (fst p) = i_line (fst p).
(** the same line of the text: line, line number, line break *)
Definition identity (p : pair) : str * Z * str := (i_line (fst p), i_number (fst p), i_end (fst p)).
(** l' is got from l by leaving out elements *)
Inductive subsequence {A} : list A -> list A -> Prop :=
| sub_nil l : subsequence [] l
| sub_take x s l : subsequence s l -> subsequence (x :: s) (x :: l)
| sub_skip x s l : subsequence s l -> subsequence s (x :: l).

(** * Indentation *)
(** Python's rule: [levels] are the widths of the open blocks, innermost first; a line of
    width w opens a block, or goes back to an open one, or to no indentation *)
Definition python_rule (levels : list Z) (w : Z) : option (list Z) :=
  if (0 <? w)%Z && forallb (fun l => l <? w)%Z levels then Some (w :: levels)
  else if (w =? 0)%Z || existsb (Z.eqb w) levels then Some (filter (fun l => l <=? w)%Z levels)
  else None.
(** the same, but a line may only go back one level at a time, or all the way *)
Definition one_level_rule (levels : list Z) (w : Z) : option (list Z) :=
  if (w =? 0)%Z || (length (filter (fun l => w <? l)%Z levels) <=? 1)%nat then python_rule levels w else None.
Section Indents.
  Context (rule : list Z -> Z -> option (list Z)).
  (** The indents of lines of the given widths ([None]: a blank line, which has the indent of
      the next line that is not, or 0).  At a line that breaks the rule it stops (false). *)
  Fixpoint indents (levels : list Z) (blanks : nat) (l : list (option Z)) : list Z * bool :=
    match l with
    | [] => (repeat 0%Z blanks, true)
    | None :: t => indents levels (S blanks) t
    | Some w :: t =>
        match rule levels w with
        | None => ([], false)
        | Some levels => let '(r, ok) := indents levels 0 t in (repeat (Z.of_nat (length levels)) (S blanks) ++ r, ok)
        end
    end.
End Indents.

(** * Sorting *)
(** elements that compare equal to x, in order *)
Definition ties {A} (ltb : A -> A -> bool) (x : A) (l : list A) : list A := filter (fun y => negb (ltb x y) && negb (ltb y x)) l.

(** * Comments *)
From Verif Require Import SplitSpec DelimSpec.
Definition triple_of (g : segment) : str * str * str := (lead g, body g, trail g).
Definition texts (l : list segment) : str := concat (map (fun g : segment => lead g ++ body g ++ trail g) l).
(** a segment in which no comment starts: quoted, or without a marker *)
Definition comment_free (markers : list str) (g : segment) : Prop := inside g <> [] \/ sep_free markers (body g).
(** the first comment marker outside quotes starts after [kept] *)
Definition cut_at (markers : list str) (segments : list segment) (kept : str) : Prop :=
  exists before g after x w t, segments = before ++ g :: after /\ Forall (comment_free markers) before /\ inside g = [] /\
    body g = x ++ w ++ t /\ In w markers /\ (forall i, i < length x -> ~ sep_at markers (body g) i) /\ kept = texts before ++ x.
(** the quote mark that is still open after the segments ([[]]: none) *)
Definition still_open (segments : list segment) : str :=
  match rev segments with g :: _ => match trail g with [] => inside g | _ => [] end | [] => [] end.
Section Comments.
  Context (markers multiline_quotes : list str).
  (** the segments of a line that starts inside the quote mark [state] *)
  Context (segmented : str -> str -> list segment -> Prop) (illegal : segment -> bool).
  Inductive line_comment (state line : str) : str -> str -> Prop :=
  | has_comment segs kept : segmented state line segs -> forallb (fun g => negb (illegal g)) segs = true -> cut_at markers segs kept ->
      line_comment state line kept []
  | no_comment segs : segmented state line segs -> forallb (fun g => negb (illegal g)) segs = true -> Forall (comment_free markers) segs ->
      still_open segs = [] \/ In (still_open segs) multiline_quotes -> line_comment state line line (still_open segs).
  Inductive bad_line (state line : str) : Prop :=
  | bad_newline segs : segmented state line segs -> existsb illegal segs = true -> bad_line state line
  | bad_open segs : segmented state line segs -> Forall (comment_free markers) segs -> still_open segs <> [] -> ~ In (still_open segs) multiline_quotes -> bad_line state line.
  (** lines without their comments *)
  Inductive uncommented : str -> list pair -> list pair -> option exn -> Prop :=
  | uncommented_end : uncommented [] [] [] None
  | uncommented_unterminated state : state <> [] -> uncommented state [] [] (Some SyntaxError)
  | uncommented_line state p q state' l l' e : line_comment state (snd p) (snd q) state' -> identity q = identity p -> uncommented state' l l' e ->
      uncommented state (p :: l) (q :: l') e
  | uncommented_bad state p l : bad_line state (snd p) -> uncommented state (p :: l) [] (Some SyntaxError).
End Comments.
