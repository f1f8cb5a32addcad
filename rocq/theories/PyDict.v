(** Python dicts and sets with keys named by natural numbers, as used by the graph
    model: insertion-ordered association lists and duplicate-free lists.  Nothing
    here models code of /repo. *)
From Verif Require Import PyBase.

Section Dict.
  Context {A : Type}.
  Definition dict := list (nat * A).
  (* d.get(k) *)
  Fixpoint dget (d : dict) (k : nat) : option A :=
    match d with
    | [] => None
    | (k', v) :: t => if (k =? k')%nat then Some v else dget t k
    end.
  (* d[k] = v: an existing key keeps its position, a new key goes last *)
  Fixpoint dset (d : dict) (k : nat) (v : A) : dict :=
    match d with
    | [] => [(k, v)]
    | (k', v') :: t => if (k =? k')%nat then (k, v) :: t else (k', v') :: dset t k v
    end.
  (* del d[k] for a present key; leaves the dict alone when the key is absent *)
  Fixpoint ddel (d : dict) (k : nat) : dict :=
    match d with
    | [] => []
    | (k', v') :: t => if (k =? k')%nat then t else (k', v') :: ddel t k
    end.
  Definition dkeys (d : dict) : list nat := map fst d.
  (* k in d *)
  Definition dmem (k : nat) (d : dict) : bool :=
    match dget d k with Some _ => true | None => false end.
End Dict.
Arguments dict A : clear implicits.

(* x in s *)
Definition smem (x : nat) (s : list nat) : bool := existsb (Nat.eqb x) s.
(* s.add(x) *)
Definition sadd (x : nat) (s : list nat) : list nat := if smem x s then s else s ++ [x].
(* s.update(l) / s |= l *)
Definition sunion (s l : list nat) : list nat := fold_left (fun s x => sadd x s) l s.
(* s.discard(x) *)
Definition sdiscard (x : nat) (s : list nat) : list nat := filter (fun y => negb (x =? y)%nat) s.
(* s - l *)
Definition sdiff (s l : list nat) : list nat := filter (fun y => negb (smem y l)) s.
(* list.remove(x): drops the first occurrence (callers treat absence separately) *)
Fixpoint lremove (x : nat) (l : list nat) : list nat :=
  match l with [] => [] | y :: t => if (x =? y)%nat then t else y :: lremove x t end.
