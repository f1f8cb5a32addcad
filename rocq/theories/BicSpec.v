(** Specification for bound inner classes.  [w0] is the world after the class statements have run; [type_attr o n] is the attribute n of the class of
    the object o, before any descriptor is invoked.  No definition here mentions the code in the model that binds classes. *)
From Verif Require Import BicModel.

Section Spec.
  Context (type_attr : oid -> str -> option value) (w0 : world).
  Definition name_of (c : cid) : str := c_name (the_class w0 c).
  Definition bases_of (c : cid) : list cid := c_bases (the_class w0 c).
  Definition mro_of (c : cid) : list cid := c_mro (the_class w0 c).
  (** c is decorated with BoundInnerClass or UnboundInnerClass in the class of o, and o still has that attribute *)
  Definition decorated (o : oid) (c : cid) : bool :=
    match type_attr o (name_of c) with Some (VWorker _ c') => c' =? c | _ => false end.
  Definition decorated_bound (o : oid) (c : cid) : bool :=
    match type_attr o (name_of c) with Some (VWorker b c') => b && (c' =? c) | _ => false end.
  (** Python has made the classes of w0 in order and given each its method resolution order *)
  Definition class_ok (c : cid) : Prop :=
    Forall (fun b => b < c) (bases_of c) /\ exists r, linearise w0 (bases_of c) = Some r /\ mro_of c = c :: r.
  (** What the documentation asks of a class that has decorated classes in it *)
  Record usage (o : oid) (rank : cid -> nat) : Prop := {
    (** a decorated class is an attribute under its own name, and the object has no attribute of that name itself *)
    u_own_name : forall n b c, type_attr o n = Some (VWorker b c) -> c < length (classes w0) /\ name_of c = n /\ dict w0 o n = None;
    (** a subclass of a decorated class is decorated *)
    u_decorate : forall c b x, decorated o c = true -> In b (bases_of c) -> In x (mro_of b) -> decorated o x = true -> decorated o b = true;
    (** the object can have something else under the name of a base, but that is not a class that has the base as its first base, nor [object] *)
    u_class : forall c b k, decorated o c = true -> In b (bases_of c) -> name_of b <> name_of c ->
      dict w0 o (name_of b) = Some (VClass k) \/ type_attr o (name_of b) = Some (VClass k) ->
      k < length (classes w0) /\ exists b' l, bases_of k = b' :: l /\ b' <> b;
    (** finding attributes by the names of the bases is not circular *)
    u_rank : forall c b c' d, decorated o c = true -> In b (bases_of c) -> name_of b <> name_of c ->
      type_attr o (name_of b) = Some (VWorker d c') -> rank c' < rank c
  }.
  (** A history: attributes of any objects are read, and class statements run *)
  Inductive step : world -> world -> Prop :=
  | step_access w o n fuel w' v : access type_attr fuel w o n = Ok (w', v) -> step w w'
  | step_class w name bases mro : linearise w bases = Some mro ->
      step w (World (classes w ++ [Cls name bases (length (classes w) :: mro) Plain]) (dict w)).
  Inductive history : world -> world -> Prop :=
  | h_nil w : history w w
  | h_step w w' w'' : history w w' -> step w' w'' -> history w w''.
End Spec.
