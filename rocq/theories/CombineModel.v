(** Model of big/text.py: combine_splits.  A generator is represented by the list of strings
    it yields and the exception that ends it, if any. *)
From Verif Require Export PyStr HeapModel.
Open Scope Z_scope.

(** list < list for lists of ints *)
Fixpoint ints_ltb (a b : list Z) : bool :=
  match a, b with
  | [], [] => false
  | [], _ :: _ => true
  | _ :: _, [] => false
  | x :: s, y :: t => (x <? y) || ((x =? y) && ints_ltb s t)
  end.
Definition yield_str (s : str) (g : list str * option exn) : list str * option exn := (s :: fst g, snd g).

(** big/text.py:1514-1519: "while pops" *)
Fixpoint pop_zeros (pops : nat) (heap : list (list Z)) : result (list (list Z)) :=
  match pops with
  | O => Ok heap
  | S pops => match heappop ints_ltb heap with
              | None => Err IndexError
              | Some (splits, heap) => pop_zeros pops (match splits with _ :: (_ :: _) as rest => heappush ints_ltb heap rest | _ => heap end)
              end
  end.
(** big/text.py:1502-1512: lengths[0] -= index in every list (no list in the heap is ever empty) *)
Definition decrement (index : Z) (l : list Z) : list Z := match l with x :: t => x - index :: t | [] => [] end.
Definition starts_zero (l : list Z) : bool := match l with x :: _ => x =? 0 | [] => false end.
(** big/text.py:1524-1536: the rest, with one split array or none; s is the part of the string after start *)
Fixpoint apply_one (lengths : list Z) (s : str) : list str * option exn :=
  match lengths with
  | [] => (match s with [] => [] | _ => [s] end, None)
  | index :: rest => if Z.of_nat (length s) <? index then ([], Some ValueError)
                     else yield_str (firstn (Z.to_nat index) s) (apply_one rest (skipn (Z.to_nat index) s))
  end.
Definition combine_last (heap : list (list Z)) (s : str) : list str * option exn :=
  match heap with [] => apply_one [] s | lengths :: _ => apply_one lengths s end.
(** big/text.py:1480-1522, the loop "while True"; it is left when fewer than two arrays are left.
    Every iteration removes characters from s; [fuel] bounds their number. *)
Fixpoint combine_loop (fuel : nat) (heap : list (list Z)) (s : str) : list str * option exn :=
  match fuel with
  | O => ([], Some RecursionError)
  | S fuel =>
      match heap with
      | (index :: _) :: _ :: _ =>
          (* snippet == s exactly when index >= len(s) *)
          if Z.of_nat (length s) <? index then ([], Some ValueError)
          else
            let rest := skipn (Z.to_nat index) s in
            yield_str (firstn (Z.to_nat index) s)
              (match rest with
               | [] => ([], None)
               | _ => let heap := map (decrement index) heap in
                      match pop_zeros (length (filter starts_zero heap)) heap with
                      | Err e => ([], Some e)
                      | Ok heap => combine_loop fuel heap rest
                      end
               end)
      | [] :: _ :: _ => ([], Some IndexError)
      | _ => combine_last heap s
      end
  end.
(** big/text.py:1564-1573: the arrays as lists of lengths *)
Definition lengths_of (split : list str) : list Z :=
  map (fun w => Z.of_nat (length w)) (filter (fun w => match w with [] => false | _ => true end) split).
Definition combine_splits (s : str) (split_arrays : list (list str)) : list str * option exn :=
  let split_lengths := filter (fun l => match l with [] => false | _ => true end) (map lengths_of split_arrays) in
  combine_loop (S (length s)) (heapify ints_ltb split_lengths) s.
