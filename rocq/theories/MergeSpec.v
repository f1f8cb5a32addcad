(** How columns are laid out, column by column. *)
From Verif Require Export MergeModel.

Section Spec.
  Context (is_bytes : bool) (before after : nat) (strategy : OverflowStrategy).
  (** A column is a text and a width.  The lines of a text: *)
  Definition text_lines (s : str) : list str := split1 (fun c => (c =? 10)%N) (rstrip is_bytes s).
  Definition line (c : str * nat) (k : nat) : str := nth k (text_lines (fst c)) [].
  Definition height (c : str * nat) : nat := length (text_lines (fst c)).
  Definition too_wide (c : str * nat) (k : nat) : bool := snd c <? length (rstrip is_bytes (line c k)).
  (** Line k of the column makes the later columns wait: it or a line near it is too wide. *)
  Definition intrudes (c : str * nat) (k : nat) : bool :=
    (k <? height c) &&
    match strategy with
    | INTRUDE_ALL => existsb (fun m => too_wide c m && (m <=? k + before) && (k <=? m + after)) (seq 0 (height c))
    | DELAY_ALL => existsb (fun m => too_wide c m && (k <=? m + after)) (seq 0 (height c))
    | _ => false
    end.
  (** What is shown of line k: padded with spaces to the width of the column; [shown] is line by default. *)
  Definition cell (shown : str * nat -> nat -> str) (c : str * nat) (k : nat) : str :=
    if intrudes c k then shown c k else ljust (snd c) (shown c k).
  (** how many rows before row r were free for the column *)
  Definition count (free : nat -> bool) (r : nat) : nat := length (filter free (seq 0 r)).
  (** Row r of the columns: a column shows its lines one after the other in the rows that are free for it;
      a row is free for the next column if it is free for this one and does not show a line that intrudes. *)
  Definition free_after (free : nat -> bool) (c : str * nat) (r : nat) : bool := free r && negb (intrudes c (count free r)).
  Fixpoint layout (shown : str * nat -> nat -> str) (free : nat -> bool) (cols : list (str * nat)) (r : nat) : list str :=
    match cols with
    | [] => []
    | c :: cols => if free r then cell shown c (count free r) :: layout shown (free_after free c) cols r else []
    end.
  (** all lines are shown before row r *)
  Fixpoint done (free : nat -> bool) (cols : list (str * nat)) (r : nat) : Prop :=
    match cols with [] => True | c :: cols => height c <= count free r /\ done (free_after free c) cols r end.
  Definition all_free (r : nat) : bool := true.
  (** the text of n rows *)
  Definition text_of (sep : str) (row : nat -> list str) (n : nat) : str :=
    rstrip is_bytes (join [10%N] (map (fun r => rstrip is_bytes (join sep (row r))) (seq 0 n))).
End Spec.
(** trailing whitespace of the line is spaces within the width of the column *)
Definition tidy is_bytes (c : str * nat) : Prop :=
  forall l, In l (text_lines is_bytes (fst c)) -> exists k, l = rstrip is_bytes l ++ repeat 32%N k /\ (k = 0 \/ length l <= snd c).
