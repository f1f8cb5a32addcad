(** What encode_strings should do, independently of the code.  Only the values and their == are
    used from EncodeModel. *)
From Verif Require Import EncodeModel.

(** a subclass whose constructor, given its contents, gives an object with these contents *)
Definition plain_class (construct : nat -> val -> result val) (c : nat) : Prop := c = 0 \/
  forall l d, construct c (VList 0 l) = Ok (VList c l) /\ construct c (VTuple 0 l) = Ok (VTuple c l) /\
              construct c (VSet 0 l) = Ok (VSet c l) /\ construct c (VDict 0 d) = Ok (VDict c d).
(** [within o x]: x is o, or is somewhere inside o *)
Inductive within : val -> val -> Prop :=
| within_self o : within o o
| within_list c l x y : In x l -> within x y -> within (VList c l) y
| within_tuple c l x y : In x l -> within x y -> within (VTuple c l) y
| within_set c l x y : In x l -> within x y -> within (VSet c l) y
| within_key c l k v y : In (k, v) l -> within k y -> within (VDict c l) y
| within_value c l k v y : In (k, v) l -> within v y -> within (VDict c l) y.
Definition class_of (o : val) : nat :=
  match o with VBytes c _ | VStr c _ | VDict c _ | VList c _ | VTuple c _ | VSet c _ => c | VOther _ => 0 end.
Definition is_container (o : val) : Prop := match o with VDict _ _ | VList _ _ | VTuple _ _ | VSet _ _ => True | _ => False end.
(** all containers inside o are of such classes *)
Definition plain (construct : nat -> val -> result val) (o : val) : Prop := forall x, within o x -> is_container x -> plain_class construct (class_of x).

(** without those equal to an earlier one *)
Fixpoint distinct (l : list val) : list val :=
  match l with [] => [] | x :: t => x :: filter (fun y => negb (veqb x y)) (distinct t) end.
(** [encodes o w]: w is o with every str replaced by its encoding *)
Inductive encodes (encode : str -> result str) : val -> val -> Prop :=
| enc_bytes c b : encodes encode (VBytes c b) (VBytes c b)
| enc_str c s b : encode s = Ok b -> encodes encode (VStr c s) (VBytes 0 b)
| enc_list c l l' : Forall2 (encodes encode) l l' -> encodes encode (VList c l) (VList c l')
| enc_tuple c l l' : Forall2 (encodes encode) l l' -> encodes encode (VTuple c l) (VTuple c l')
(** elements that become equal become one *)
| enc_set c l l' : Forall2 (encodes encode) l l' -> encodes encode (VSet c l) (VSet c (distinct l'))
(** of keys that become equal the first is kept, with the value of the last *)
| enc_dict c l ks vs d : Forall2 (encodes encode) (map fst l) ks -> Forall2 (encodes encode) (map snd l) vs ->
    map fst d = distinct ks ->
    (forall k v, In (k, v) d -> exists i, (exists k', nth_error ks i = Some k' /\ veqb k k' = true) /\ nth_error vs i = Some v /\
                                  forall j k', j > i -> nth_error ks j = Some k' -> veqb k k' = false) ->
    encodes encode (VDict c l) (VDict c d).
(** the same with nothing lost *)
Inductive encodes_intact (encode : str -> result str) : val -> val -> Prop :=
| int_bytes c b : encodes_intact encode (VBytes c b) (VBytes c b)
| int_str c s b : encode s = Ok b -> encodes_intact encode (VStr c s) (VBytes 0 b)
| int_list c l l' : Forall2 (encodes_intact encode) l l' -> encodes_intact encode (VList c l) (VList c l')
| int_tuple c l l' : Forall2 (encodes_intact encode) l l' -> encodes_intact encode (VTuple c l) (VTuple c l')
| int_set c l l' : Forall2 (encodes_intact encode) l l' -> encodes_intact encode (VSet c l) (VSet c l')
| int_dict c l d : Forall2 (encodes_intact encode) (map fst l) (map fst d) -> Forall2 (encodes_intact encode) (map snd l) (map snd d) ->
    encodes_intact encode (VDict c l) (VDict c d).

(** the elements of every set, and the keys of every dict, differ from each other *)
Definition well_formed (o : val) : Prop := forall x, within o x ->
  match x with
  | VSet _ l => ForallOrdPairs (fun a b => veqb a b = false) l
  | VDict _ l => ForallOrdPairs (fun a b => veqb a b = false) (map fst l)
  | _ => True
  end.
