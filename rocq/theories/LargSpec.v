(** Specification for lines() and LineInfo with arguments of any type. *)
From Verif Require Import LinesModel TypedModel TypedSpec LargModel.

(** what iterating over a value gives *)
Inductive elements : value -> list obj -> Prop :=
| of_tuple l : elements (Tuple l) l
| of_collection l : elements (Obj (OSeq l)) l
| of_iterator l : elements (Obj (OIter l)) l
| of_string c v : elements (Obj (OText KStr c v)) (map (fun x => OText KStr None [x]) v)
| of_bytes c v : elements (Obj (OText KBytes c v)) (map (fun _ => an_int) v).

(** The first value decides whether all are pairs, or strings, and of which type. *)
Inductive shape := PairsShape | StringsShape (k : kind).
Definition shape_of (l : list value) : shape :=
  match l with Tuple _ :: _ => PairsShape | Obj (OText KBytes _ _) :: _ => StringsShape KBytes | _ => StringsShape KStr end.

Section Spec.
  Context (subclass : nat -> nat -> bool).
  (** an object of class [c'] is an instance of class [c] *)
  Definition instance (c' c : option nat) : Prop := match c, c' with None, _ => True | Some d, Some d' => subclass d' d = true | Some _, None => False end.
  (** a value that is accepted: the line (type, class, characters) and its end *)
  Inductive reads : shape -> value -> kind -> option nat -> str -> str -> Prop :=
  | reads_string k v : reads (StringsShape k) (Obj (OText k None v)) k None v []
  | reads_pair w k c v c' e : elements w [OText k c v; OText k c' e] -> (e <> [] \/ instance c' c) -> reads PairsShape w k c v e
  | reads_none w k c v : elements w [OText k c v; ONone] -> reads PairsShape w k c v [].
  (** a value that is not *)
  Inductive rejects : shape -> value -> exn -> Prop :=
  | rejects_count w l : elements w l -> length l <> 2 -> rejects PairsShape w ValueError
  | rejects_uniterable w : (forall l, ~ elements w l) -> rejects PairsShape w TypeError
  | rejects_pair w l : elements w l -> length l = 2 -> (forall k c v e, ~ reads PairsShape w k c v e) -> rejects PairsShape w TypeError
  | rejects_string k w : (forall k' c v e, ~ reads (StringsShape k) w k' c v e) -> rejects (StringsShape k) w TypeError.

  (** the attributes of the LineInfo for line number n *)
  Definition describes (info : attrs) (self : pyval) (k : kind) (line e : str) (n column : Z) : Prop :=
    get info (u "lines") = Some self /\ (exists c, get info (u "line") = Some (PObj (OText k c (line ++ e)))) /\
    get info (u "line_number") = Some (PInt n) /\ get info (u "column_number") = Some (PInt column) /\
    get info (u "leading") = Some (PObj (OText k None [])) /\ get info (u "trailing") = Some (PObj (OText k None [])) /\
    (exists c, get info (u "end") = Some (PObj (OText k c e))) /\ get info (u "indent") = Some (PInt 0) /\ get info (u "match") = Some (PObj ONone).
  (** iterating, and going on after an exception: only the lines that are yielded are counted *)
  Inductive iterates (self : pyval) (column : Z) (sh : shape) : Z -> list value -> list next_result -> Prop :=
  | it_end n : iterates self column sh n [] []
  | it_line n w ws info k c line e rs : reads sh w k c line e -> describes info self k line e n column ->
      iterates self column sh (n + 1) ws rs -> iterates self column sh n (w :: ws) (Next info (OText k c line) :: rs)
  | it_raises n w ws x rs : rejects sh w x -> iterates self column sh n ws rs -> iterates self column sh n (w :: ws) (Raises x :: rs).
End Spec.
(** what is yielded is what the model without types yields *)
Definition shows (self : pyval) (k : kind) (r : next_result) (p : LinesModel.pair) : Prop :=
  exists info c, r = Next info (OText k c (snd p)) /\ i_line (fst p) = snd p ++ i_end (fst p) /\ i_leading (fst p) = [] /\ i_trailing (fst p) = [] /\ i_indent (fst p) = 0%Z /\
    describes info self k (snd p) (i_end (fst p)) (i_number (fst p)) (i_column (fst p)).

(** The markers of comments that an argument stands for: a str or bytes, for its characters, a tuple or list, or another collection with a first element. *)
Definition texts_of (k : kind) (l : list obj) (markers : list str) : Prop := Forall2 (fun o v => exists c, o = OText k c v) l markers.
Inductive markers_arg (subscript : list obj -> result obj) (k : kind) : value -> list str -> Prop :=
| markers_text c v : v <> [] -> markers_arg subscript k (Obj (OText k c v)) (map (fun x => [x]) v)
| markers_tuple l m : l <> [] -> texts_of k l m -> markers_arg subscript k (Tuple l) m
| markers_other l m c v : l <> [] -> texts_of k l m -> subscript l = Ok (OText k c v) -> markers_arg subscript k (Obj (OSeq l)) m.
(** an object without a first element *)
Definition no_first (subscript : list obj -> result obj) (w : value) (e : exn) : Prop :=
  (exists l, w = Obj (OIter l)) /\ e = TypeError \/ w = Obj (OOther true) /\ e = TypeError \/ exists l, l <> [] /\ w = Obj (OSeq l) /\ subscript l = Err e.
(** ... and the first element of one that has one *)
Definition first_is (subscript : list obj -> result obj) (w : value) (o : obj) : Prop :=
  (exists l, w = Tuple (o :: l)) \/ (exists c x v, w = Obj (OText KStr c (x :: v)) /\ o = OText KStr None [x]) \/ exists l, l <> [] /\ w = Obj (OSeq l) /\ subscript l = Ok o.
