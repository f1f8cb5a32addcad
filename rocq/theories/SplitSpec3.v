(** str.split(sep), str.rsplit(sep), str.partition, str.rpartition and str.splitlines, as Python documents them. *)
From Verif Require Import PyStr.

(** sep is found in s at position i *)
Definition occurs (sep s : str) (i : nat) : Prop := exists t, skipn i s = sep ++ t.
(** x ++ sep ++ t is cut at the first occurrence of sep / at the last *)
Definition first_cut (sep x t : str) : Prop := forall i, i < length x -> ~ occurs sep (x ++ sep ++ t) i.
Definition last_cut (sep x t : str) : Prop := forall i, i > length x -> ~ occurs sep (x ++ sep ++ t) i.
Definition absent (sep s : str) : Prop := forall i, ~ occurs sep s i.
(** s.split(sep, n); None: no limit *)
Inductive sep_split (sep : str) : option nat -> str -> list str -> Prop :=
| ss_limit s : sep_split sep (Some 0) s [s]
| ss_none n s : absent sep s -> sep_split sep n s [s]
| ss_cut n x t l : n <> Some 0 -> first_cut sep x t -> sep_split sep (option_map pred n) t l -> sep_split sep n (x ++ sep ++ t) (x :: l).
(** s.rsplit(sep, n) *)
Inductive sep_rsplit (sep : str) : option nat -> str -> list str -> Prop :=
| rs_limit s : sep_rsplit sep (Some 0) s [s]
| rs_none n s : absent sep s -> sep_rsplit sep n s [s]
| rs_cut n x t l : n <> Some 0 -> last_cut sep x t -> sep_rsplit sep (option_map pred n) x l -> sep_rsplit sep n (x ++ sep ++ t) (l ++ [t]).
(** s.partition(sep), s.rpartition(sep) *)
Definition partitioned (sep s : str) (r : list str) : Prop :=
  absent sep s /\ r = [s; []; []] \/ exists x t, s = x ++ sep ++ t /\ first_cut sep x t /\ r = [x; sep; t].
Definition rpartitioned (sep s : str) (r : list str) : Prop :=
  absent sep s /\ r = [[]; []; s] \/ exists x t, s = x ++ sep ++ t /\ last_cut sep x t /\ r = [x; sep; t].
(** s.splitlines(keepends); [p]: the characters that break lines; [line]: the line so far *)
Fixpoint split_lines (p : chr -> bool) (keepends : bool) (line s : str) : list str :=
  match s with
  | [] => match line with [] => [] | _ => [line] end
  | c :: t =>
      if p c then
        match t with
        | d :: t' => if ((c =? 13) && (d =? 10))%N then (line ++ if keepends then [c; d] else []) :: split_lines p keepends [] t'
                     else (line ++ if keepends then [c] else []) :: split_lines p keepends [] t
        | [] => [line ++ if keepends then [c] else []]
        end
      else split_lines p keepends (line ++ [c]) t
  end.
(** "if l and not l[-1]: l.pop()" *)
Definition without_last_empty (l : list str) : list str := match rev l with [] :: t => rev t | _ => l end.
(** s is empty or ends with a line break *)
Definition ends_line (p : chr -> bool) (s : str) : bool := match rev s with [] => true | c :: _ => p c end.
