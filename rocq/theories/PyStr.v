(** Python strings as lists of code points, with the built-in character classes and
    decimal conversions that /repo uses.  Nothing here models code of /repo. *)
From Verif Require Export PyBase.
From Coq Require Export NArith.
From Coq Require Ascii.
From Coq Require Export (notations) String.

Definition chr := N.
Definition str := list chr.
(** literals: [u "abc"] *)
Fixpoint u (s : String.string) : str :=
  match s with
  | String.EmptyString => []
  | String.String a t => Ascii.N_of_ascii a :: u t
  end.
Arguments u s%string_scope.
(** one-character literals: [c1 "a"] *)
Definition c1 (s : String.string) : chr := match s with String.String a _ => Ascii.N_of_ascii a | _ => 0%N end.
Arguments c1 s%string_scope.

Fixpoint str_eqb (a b : str) : bool :=
  match a, b with
  | [], [] => true
  | x :: s, y :: t => (x =? y)%N && str_eqb s t
  | _, _ => false
  end.
(** str < str: lexicographic by code point *)
Fixpoint str_ltb (a b : str) : bool :=
  match a, b with
  | [], [] => false
  | [], _ :: _ => true
  | _ :: _, [] => false
  | x :: s, y :: t => (x <? y)%N || ((x =? y)%N && str_ltb s t)
  end.

Definition between (lo hi c : N) : bool := ((lo <=? c) && (c <=? hi))%N.
(** [0-9] *)
Definition is_digit (c : chr) : bool := between 48 57 c.
(** str.isspace / \s on str: bidirectional type WS, B, S or category Zs *)
Definition is_space (c : chr) : bool :=
  (between 9 13 c || between 28 32 c || (c =? 133) || (c =? 160) || (c =? 5760) || between 8192 8202 c
   || (c =? 8232) || (c =? 8233) || (c =? 8239) || (c =? 8287) || (c =? 12288))%N.
Definition newline : chr := 10%N.

(** int(digits) *)
Definition int_of (s : str) : Z := fold_left (fun acc c => (acc * 10 + Z.of_N (c - 48))%Z) s 0%Z.
(** str(int) for a non-negative int *)
Fixpoint dec_aux (fuel : nat) (n : N) (acc : str) : str :=
  match fuel with
  | O => acc
  | S f => let acc := (48 + n mod 10)%N :: acc in
           if (n <? 10)%N then acc else dec_aux f (n / 10)%N acc
  end.
Definition dec (n : N) : str := dec_aux (S (N.to_nat (N.size n))) n [].
(** str(int) *)
Definition str_int (z : Z) : str :=
  if (z <? 0)%Z then 45%N :: dec (Z.to_N (- z)) else dec (Z.to_N z).
(** sep.join(l) *)
Fixpoint join (sep : str) (l : list str) : str :=
  match l with
  | [] => []
  | [x] => x
  | x :: t => x ++ sep ++ join sep t
  end.
(** s.split(c) for a one-character separator *)
Fixpoint split1 (p : chr -> bool) (s : str) : list str :=
  match s with
  | [] => [[]]
  | c :: t => if p c then [] :: split1 p t
              else match split1 p t with x :: r => (c :: x) :: r | [] => [[c]] end
  end.
