(** Model of big/text.py encode_strings.  A value is a finite tree (an object that contains itself
    makes the function recurse until RecursionError: not modelled).  A bytes object is the list
    of its byte values. *)
From Verif Require Export PyStr.

(** [cls]: 0 is the built-in type itself, other numbers are subclasses of it.  [VOther]: an
    object of any other type.  A dict is the list of its items, a set the list of its elements,
    in the order of iteration. *)
Inductive val :=
| VBytes (cls : nat) (b : str)
| VStr (cls : nat) (s : str)
| VDict (cls : nat) (l : list (val * val))
| VList (cls : nat) (l : list val)
| VTuple (cls : nat) (l : list val)
| VSet (cls : nat) (l : list val)
| VOther (n : nat).

(** == between values, as used for set elements and dict keys: subclasses of the built-in
    types do not change it.  (Sets and dicts are not hashable: how they compare does not matter.) *)
Fixpoint veqb (a b : val) : bool :=
  match a, b with
  | VBytes _ x, VBytes _ y => str_eqb x y
  | VStr _ x, VStr _ y => str_eqb x y
  | VTuple _ x, VTuple _ y | VList _ x, VList _ y | VSet _ x, VSet _ y =>
      (fix go x y := match x, y with [], [] => true | a :: x, b :: y => veqb a b && go x y | _, _ => false end) x y
  | VDict _ x, VDict _ y =>
      (fix go x y := match x, y with [], [] => true | (a, a') :: x, (b, b') :: y => veqb a b && veqb a' b' && go x y | _, _ => false end) x y
  | VOther m, VOther n => m =? n
  | _, _ => false
  end.
(** d[k] = v: a key that is there already stays as it is *)
Fixpoint dict_set (d : list (val * val)) (k v : val) : list (val * val) :=
  match d with
  | [] => [(k, v)]
  | (k', v') :: t => if veqb k' k then (k', v) :: t else (k', v') :: dict_set t k v
  end.
(** s.add(x) *)
Definition set_add (s : list val) (x : val) : list val := if existsb (fun y => veqb y x) s then s else s ++ [x].

Section Encode.
  (** [encode]: s.encode(encoding).  [construct c v]: calling the subclass c with the dict or set
      v, or with a generator of the elements of the list or tuple v; the constructor is supposed
      to run the generator to its end. *)
  Context (encode : str -> result str) (construct : nat -> val -> result val).
  Definition make (cls : nat) (v : val) : result val := if cls =? 0 then Ok v else construct cls v.
  (** big/text.py:77-97 _recursive_encode_strings *)
  Fixpoint encode_value (o : val) : result val :=
    match o with
    | VBytes c b => Ok (VBytes c b)
    | VStr c s => rmap (VBytes 0) (encode s)
    | VDict c l =>
        rbind ((fix go l d := match l with
                              | [] => Ok d
                              | (k, v) :: t => rbind (encode_value k) (fun k => rbind (encode_value v) (fun v => go t (dict_set d k v)))
                              end) l []) (fun d => make c (VDict 0 d))
    | VList c l => rbind ((fix go l := match l with [] => Ok [] | x :: t => rbind (encode_value x) (fun x => rmap (cons x) (go t)) end) l)
                         (fun l => make c (VList 0 l))
    | VTuple c l => rbind ((fix go l := match l with [] => Ok [] | x :: t => rbind (encode_value x) (fun x => rmap (cons x) (go t)) end) l)
                          (fun l => make c (VTuple 0 l))
    | VSet c l => rbind ((fix go l s := match l with [] => Ok s | x :: t => rbind (encode_value x) (fun x => go t (set_add s x)) end) l [])
                        (fun s => make c (VSet 0 s))
    | VOther _ => Err TypeError
    end.
End Encode.
(** the codecs 'ascii' and 'latin-1'; the error is UnicodeEncodeError *)
Definition UnicodeEncodeError : exn := OtherError 1.
Definition encode_below (limit : N) (s : str) : result str := if forallb (fun c => (c <? limit)%N) s then Ok s else Err UnicodeEncodeError.
Definition ascii_codec := encode_below 128.
Definition latin1_codec := encode_below 256.
(** big/text.py:100-120 encode_strings, encoding='ascii' being the default *)
Definition encode_strings (construct : nat -> val -> result val) (o : val) (encode : option (str -> result str)) : result val :=
  encode_value (match encode with None => ascii_codec | Some e => e end) construct o.
