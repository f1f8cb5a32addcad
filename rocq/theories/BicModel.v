(** Model of big/boundinnerclass.py.  Classes are numbered in the order they are made; an instance of an outer class is a number.
    Python's class machinery is modelled as far as the code uses it: __name__, __bases__, __mro__ (the C3 linearisation),
    attribute lookup on an instance, and which __init__ runs (__repr__ is in BicReprModel.v).  Not modelled: __doc__, __qualname__ and annotations,
    metaclasses, layout conflicts (__slots__, built-in types) on assignment to __bases__. *)
From Verif Require Export PyStr.

Definition cid := nat.
Definition oid := nat.
(** what a Wrapper class is: which outer object (by weak reference) and inner class it was made for *)
Inductive kind := Plain | BoundTo (o : oid) (inner : cid) | UnboundIn (inner : cid).
Record cls := Cls { c_name : str; c_bases : list cid; c_mro : list cid; c_kind : kind }.
(** attribute values: a class; a BoundInnerClass (true) or UnboundInnerClass object; anything else *)
Inductive value := VClass (c : cid) | VWorker (bound : bool) (inner : cid) | VOther.
(** all classes, and the __dict__ of each instance *)
Record world := World { classes : list cls; dict : oid -> str -> option value }.
Definition set_dict (d : oid -> str -> option value) (o : oid) (n : str) (v : value) : oid -> str -> option value :=
  fun o' n' => if (o' =? o) && str_eqb n' n then Some v else d o' n'.
Definition no_class : cls := Cls [] [] [] Plain.
Definition the_class (w : world) (c : cid) : cls := nth c (classes w) no_class.

(** The C3 linearisation (Objects/typeobject.c, pmerge): the first head that is in no tail *)
Definition in_tail (c : cid) (ls : list (list cid)) : bool := existsb (fun l => match l with [] => false | _ :: t => existsb (Nat.eqb c) t end) ls.
Fixpoint find_head (all ls : list (list cid)) : option cid :=
  match ls with
  | [] => None
  | [] :: ls => find_head all ls
  | (h :: _) :: ls => if in_tail h all then find_head all ls else Some h
  end.
Definition drop_head (c : cid) (l : list cid) : list cid := match l with h :: t => if h =? c then t else l | [] => [] end.
Definition all_empty (ls : list (list cid)) : bool := forallb (fun l => match l with [] => true | _ => false end) ls.
Fixpoint merge (fuel : nat) (ls : list (list cid)) : option (list cid) :=
  if all_empty ls then Some []
  else match fuel with
       | 0 => None
       | S fuel => match find_head ls ls with
                   | None => None
                   | Some h => option_map (cons h) (merge fuel (map (drop_head h) ls))
                   end
       end.
(** the linearisation of a class with these bases, without the class itself; None: TypeError *)
Definition linearise (w : world) (bases : list cid) : option (list cid) :=
  let ls := map (fun b => c_mro (the_class w b)) bases ++ [bases] in merge (list_sum (map (@length cid) ls)) ls.

Section Outer.
  (** what the class of an instance (or a base of it) has under a name *)
  Context (type_attr : oid -> str -> option value).
  (** getattr(outer, n, None), where [get] is _Worker.__get__; the instance's __dict__ comes first because a _Worker has no __set__. *)
  Definition getattr_none (get : world -> bool -> cid -> result (world * cid)) (w : world) (outer : oid) (n : str) : result (world * option value) :=
    match dict w outer n with
    | Some v => Ok (w, Some v)
    | None => match type_attr outer n with
              | Some (VWorker b c) => rmap (fun '(w, k) => (w, Some (VClass k))) (get w b c)
              | v => Ok (w, v)
              end
    end.
  (** big/boundinnerclass.py:101-123: the loop over cls.__bases__; the list is what it appends to wrapper_bases, the bool multiply_inherit *)
  Fixpoint bases_loop (get : world -> bool -> cid -> result (world * cid)) (outer : oid) (name : str) (bases : list cid) (w : world)
    : result (world * list cid * bool) :=
    match bases with
    | [] => Ok (w, [], false)
    | base :: bases =>
        let n := c_name (the_class w base) in
        rbind (if str_eqb n name then Ok (w, base, false)
               else rbind (getattr_none get w outer n) (fun '(w, v) =>
                    match v with
                    | Some (VClass k) =>
                        match c_bases (the_class w k) with
                        | [] => Err IndexError
                        | b :: _ => if b =? base then Ok (w, k, true) else Ok (w, base, false)
                        end
                    | _ => Ok (w, base, false)
                    end)) (fun '(w, inherit_from, m) =>
        rmap (fun '(w, l, m') => (w, inherit_from :: l, m || m')) (bases_loop get outer name bases w))
    end.
  (** big/boundinnerclass.py:69-139 _Worker.__get__(outer, outer_class) with outer an instance.  No fuel: RecursionError. *)
  Fixpoint worker_get (fuel : nat) (w : world) (outer : oid) (bound : bool) (c : cid) : result (world * cid) :=
    match fuel with
    | 0 => Err RecursionError
    | S fuel =>
        let name := c_name (the_class w c) in
        rbind (bases_loop (fun w b c => worker_get fuel w outer b c) outer name (c_bases (the_class w c)) w) (fun '(w, l, multiply_inherit) =>
          (* big/boundinnerclass.py:125-132 *)
          let bases := if multiply_inherit then c :: l else [c] in
          match linearise w bases with
          | None => Err TypeError
          | Some mro =>
              let k := length (classes w) in
              let wrapper := Cls name bases (k :: mro) (if bound then BoundTo outer c else UnboundIn c) in
              (* big/boundinnerclass.py:137-139 *)
              Ok (World (classes w ++ [wrapper]) (set_dict (dict w) outer name (VClass k)), k)
          end)
    end.
  (** outer.name *)
  Definition access (fuel : nat) (w : world) (outer : oid) (n : str) : result (world * value) :=
    match dict w outer n with
    | Some v => Ok (w, v)
    | None => match type_attr outer n with
              | Some (VWorker b c) => rmap (fun '(w, k) => (w, VClass k)) (worker_get fuel w outer b c)
              | Some v => Ok (w, v)
              | None => Err AttributeError
              end
    end.
  (** Outer.name, outer is None: big/boundinnerclass.py:93-94 *)
  Definition class_access (a : option value) : result value :=
    match a with Some (VWorker _ c) => Ok (VClass c) | Some v => Ok v | None => Err AttributeError end.
End Outer.

(** Which __init__ runs.  [defines c]: the class statement of c has an __init__, which calls super().__init__(...) once.
    [takes_outer c]: that __init__ has a parameter for the outer object. *)
Section Init.
  Context (w : world) (defines takes_outer : cid -> bool) (alive : oid -> bool).
  (** an __init__ that ran, and the object it got for outer (if it has one): None if the weak reference is dead *)
  Definition event := (cid * option (option oid))%type.
  (** Call __init__ found in the class list [mro] (the method resolution order from where the search starts) on an instance whose class has
      method resolution order [self_mro]; [outer] is the extra first argument, if any.  super().__init__() in class c searches after c. *)
  Fixpoint after (c : cid) (l : list cid) : list cid := match l with [] => [] | x :: l => if x =? c then l else after c l end.
  Fixpoint call_init (fuel : nat) (self_mro mro : list cid) (outer : option (option oid)) : result (list event) :=
    match fuel with
    | 0 => Err RecursionError
    | S fuel =>
        match mro with
        | [] => (* object.__init__ *) match outer with None => Ok [] | Some _ => Err TypeError end
        | c :: rest =>
            match c_kind (the_class w c) with
            | BoundTo o inner => (* big/boundinnerclass.py:168-170: cls.__init__(self, outer_weakref(), *args) *)
                match outer with
                | None => call_init fuel self_mro (c_mro (the_class w inner)) (Some (if alive o then Some o else None))
                | Some _ => Err TypeError (* one argument too many for the __init__ it is passed to *)
                end
            | UnboundIn _ => (* big/boundinnerclass.py:211: class Wrapper(base): pass *) call_init fuel self_mro rest outer
            | Plain =>
                if defines c then
                  match takes_outer c, outer with
                  | true, Some _ | false, None => rmap (cons (c, outer)) (call_init fuel self_mro (after c self_mro) None)
                  | _, _ => Err TypeError
                  end
                else call_init fuel self_mro rest outer
            end
        end
    end.
  (** k(): type(self).__init__(self) *)
  Definition construct (fuel : nat) (k : cid) : result (list event) := call_init fuel (c_mro (the_class w k)) (c_mro (the_class w k)) None.
End Init.
