(** What a Heap must hold after calls in which a comparison raised (C115).  Multisets are lists up to [Permutation]. *)
From Verif Require Export HexnModel HeapSpec.

Section HexnSpec.
  Context {A : Type} (lt eq : nat -> A -> A -> result bool).
  (** the exceptions that come out of comparisons *)
  Definition from_comparison (e : exn) : Prop := exists n x y, lt n x y = Err e \/ eq n x y = Err e.
  (** [holds m op m' r]: a call on a heap with the values m, which returns or raises r, leaves the values m' *)
  Inductive holds : list A -> xop A -> list A -> result (option A) -> Prop :=
  (* the value is in the heap, whether append returns or raises *)
  | x_append m o m' r : Permutation m' (o :: m) -> (r = Ok None \/ exists e, r = Err e /\ from_comparison e) -> holds m (XAppend o) m' r
  | x_clear m : holds m XClear [] (Ok None)
  | x_extend m i m' r : Permutation m' (i ++ m) -> (r = Ok None \/ exists e, r = Err e /\ from_comparison e) -> holds m (XExtend i None) m' r
  (* what the iterable yielded before it raised is in the heap *)
  | x_extend_raises m i e m' : Permutation m' (i ++ m) -> holds m (XExtend i (Some e)) m' (Err e)
  | x_remove m o n x m' r : eq n x o = Ok true -> Permutation m (x :: m') -> (r = Ok None \/ exists e, r = Err e /\ from_comparison e) -> holds m (XRemove o) m' r
  | x_not_removed m o m' e : Permutation m' m -> e = ValueError \/ from_comparison e -> holds m (XRemove o) m' (Err e)
  | x_popleft m x m' : Permutation m (x :: m') -> holds m XPopleft m' (Ok (Some x))
  (* one value is lost: it is neither in the heap nor returned *)
  | x_popleft_lost m x m' e : Permutation m (x :: m') -> from_comparison e -> holds m XPopleft m' (Err e)
  | x_popleft_empty : holds [] XPopleft [] (Err IndexError)
  | x_append_and_popleft m o x m' : Permutation (o :: m) (x :: m') -> holds m (XAppendAndPopleft o) m' (Ok (Some x))
  | x_append_and_popleft_lost m o x m' e : Permutation (o :: m) (x :: m') -> from_comparison e -> holds m (XAppendAndPopleft o) m' (Err e)
  | x_popleft_and_append m o x m' : Permutation (o :: m) (x :: m') -> In x m -> holds m (XPopleftAndAppend o) m' (Ok (Some x))
  | x_popleft_and_append_lost m o x m' e : Permutation (o :: m) (x :: m') -> In x m -> from_comparison e -> holds m (XPopleftAndAppend o) m' (Err e)
  | x_popleft_and_append_empty o : holds [] (XPopleftAndAppend o) [] (Err IndexError).

  (** Of a history: the values handed over, and those returned *)
  Definition handed (op : xop A) : list A :=
    match op with XAppend o | XAppendAndPopleft o | XPopleftAndAppend o => [o] | XExtend i _ => i | _ => [] end.
  Definition given_back (r : result (option A)) : list A := match r with Ok (Some x) => [x] | _ => [] end.
  Definition pops (op : xop A) : bool := match op with XPopleft | XAppendAndPopleft _ | XPopleftAndAppend _ => true | _ => false end.
  (** the calls of a popping method that raised *)
  Definition failed_pops (l : list (xop A * result (option A))) : nat :=
    length (filter (fun p => pops (fst p) && match snd p with Err _ => true | _ => false end) l).
  Definition takes_out (op : xop A) : bool := match op with XClear | XRemove _ => true | _ => false end.
End HexnSpec.
