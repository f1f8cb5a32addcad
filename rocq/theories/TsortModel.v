(** Model of the program at the end of big/graph.py (lines 690-724), which is what
    python -m big.graph runs: a tsort.  The file is the text after decoding. *)
From Verif Require Import PyBase PyStr PyDict GraphModel SplitModel GrepModel.

(** iterating over a text file: the lines with their newlines (universal newlines: GrepModel) *)
Fixpoint file_lines (s : str) : list str :=
  match s with
  | [] => []
  | c :: t => if (c =? 10)%N then [10%N] :: file_lines t
              else match file_lines t with [] => [[c]] | l :: ls => (c :: l) :: ls end
  end.
(** str.strip() *)
Fixpoint drop_space (s : str) : str := match s with c :: t => if is_space c then drop_space t else s | [] => [] end.
Definition strip (s : str) : str := rev (drop_space (rev (drop_space s))).

(** what the program does: print some lines, sys.exit("invalid input: " + repr(line)) or end
    with an exception; [Running]: it is still running after [fuel] rounds of static_order *)
Inductive outcome := Prints (l : list str) | Exits (line : str) | Raises (e : exn) | Running.

Section Tsort.
  (** GraphModel's nodes are numbers: [code] numbers the strings, [name] is the string of a number *)
  Context (code : str -> nat) (name : nat -> str) (ord : list nat -> list nat).
  (** big/graph.py:709-716 *)
  Fixpoint read_pairs (w : world) (g : nat) (lines : list str) : world + outcome :=
    match lines with
    | [] => inl w
    | line :: t =>
        let line := strip line in
        if is_nil line then read_pairs w g t
        else match split_ws line with
             | [field0; field1] => match step ord w (OAdd g (code field1) [code field0]) with
                                   | (w, Ok _) => read_pairs w g t
                                   | (_, Err e) => inr (Raises e)
                                   end
             | _ => inr (Exits line)
             end
    end.
  (** big/graph.py:702-720; the two ways to get the file (702-706) are not modelled *)
  Definition tsort (fuel : nat) (raw : str) : outcome :=
    match step ord (mkW [] []) ONewGraph with
    | (w, Ok (VGraph g _)) =>
        match read_pairs w g (file_lines (read false raw)) with
        | inr o => o
        | inl w => match static_order ord fuel w g with
                   | Some (_, Ok nodes) => Prints (map name nodes)
                   | Some (_, Err e) => Raises e
                   | None => Running
                   end
        end
    | (_, Err e) => Raises e
    | _ => Running
    end.
End Tsort.
