(** A backtracking regular-expression matcher with capture groups, transcribing the
    documented semantics of Python's re for the constructs /repo uses: alternatives tried
    left to right, greedy repetition, groups holding the text of their last match,
    captures undone on backtracking, and $ (end, or just before a final newline). *)
From Verif Require Export PyStr.

Inductive re :=
| Eps
| Chr (p : chr -> bool)
| Seq (a b : re)
| Alt (a b : re)
| Star (a : re)                  (* greedy; an iteration must consume something *)
| Grp (i : nat) (a : re)
| Eol.                           (* $ *)
Definition Opt a := Alt a Eps.   (* greedy ? *)
Definition Plus a := Seq a (Star a).
Definition Lit (p : chr -> chr -> bool) (s : str) : re := fold_right (fun c r => Seq (Chr (p c)) r) Eps s.

Definition groups := list (nat * str).
Fixpoint group (g : groups) (i : nat) : option str :=
  match g with
  | [] => None
  | (j, s) :: t => if j =? i then Some s else group t i
  end.
Definition at_eol (s : str) : bool := match s with [] => true | [c] => (c =? newline)%N | _ => false end.

Section Match.
  Context {R : Type}.
  Fixpoint rmatch (r : re) (s : str) (g : groups) (k : str -> groups -> option R) : option R :=
    match r with
    | Eps => k s g
    | Chr p => match s with c :: t => if p c then k t g else None | [] => None end
    | Seq a b => rmatch a s g (fun s g => rmatch b s g k)
    | Alt a b => match rmatch a s g k with Some x => Some x | None => rmatch b s g k end
    | Star a =>
        (fix loop (n : nat) (s : str) (g : groups) : option R :=
          match n with
          | O => k s g
          | S n => match rmatch a s g (fun s' g' => if length s' <? length s then loop n s' g' else None) with
                   | Some x => Some x
                   | None => k s g
                   end
          end) (length s) s g
    | Grp i a => rmatch a s g (fun s' g' => k s' ((i, firstn (length s - length s') s) :: g'))
    | Eol => if at_eol s then k s g else None
    end.
End Match.
(** re.compile(r).match(s): the groups and the rest of the string *)
Definition re_match (r : re) (s : str) : option (groups * str) :=
  rmatch r s [] (fun s g => Some (g, s)).
