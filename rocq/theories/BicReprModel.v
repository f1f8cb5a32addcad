(** Model of the repr() of instances of bound inner classes, on top of BicModel.v. *)
From Verif Require Import PyBase PyStr BicModel.

(** whose __repr__ runs: that of a class statement, that of the Wrapper for an object o and a class, or object's *)
Inductive shown := ByCustom (c : cid) | ByBound (o : oid) (inner : cid) | ByObject.

(** [custom c]: the class statement of c has a __repr__ (object has none in this sense).  [modname c], [qualname c]: c.__module__, c.__qualname__;
    [alive o]: the weak reference to o still gives o; [repr_obj], [repr_custom]: repr(o), and what the __repr__ of class c returns for this
    instance; [addr]: hex(id(self)) *)
Section Repr.
  Context (w : world) (custom : cid -> bool).
  (** type(self).__repr__: the first in the method resolution order.  A Wrapper has one, big/boundinnerclass.py:172-174, if cls.__repr__ is
      object.__repr__; that of an UnboundInnerClass, big/boundinnerclass.py:206-207, has none.  No fuel: RecursionError. *)
  Fixpoint find_repr (fuel : nat) (mro : list cid) : result shown :=
    match fuel with
    | 0 => Err RecursionError
    | S fuel =>
        match mro with
        | [] => Ok ByObject
        | c :: rest =>
            match c_kind (the_class w c) with
            | BoundTo o inner =>
                rbind (find_repr fuel (c_mro (the_class w inner))) (fun r =>
                match r with ByObject => Ok (ByBound o inner) | _ => find_repr fuel rest end)
            | UnboundIn _ => find_repr fuel rest
            | Plain => if custom c then Ok (ByCustom c) else find_repr fuel rest
            end
        end
    end.
  Context (modname qualname : cid -> str) (alive : oid -> bool) (repr_obj : oid -> str) (repr_custom : cid -> str) (addr : str).
  (** big/boundinnerclass.py:175-185 Wrapper.__repr__; k is self.__class__; and object.__repr__ *)
  Definition wrapper_repr (k : cid) (o : oid) (inner : cid) : str :=
    concat [u "<"; modname inner; u "."; c_name (the_class w k); u " object bound to "; if alive o then repr_obj o else u "None"; u " at "; addr; u ">"].
  Definition object_repr (k : cid) : str := u "<" ++ modname k ++ u "." ++ qualname k ++ u " object at " ++ addr ++ u ">".
  Definition repr_instance (fuel : nat) (k : cid) : result str :=
    rmap (fun r => match r with ByCustom c => repr_custom c | ByBound o inner => wrapper_repr k o inner | ByObject => object_repr k end)
         (find_repr fuel (c_mro (the_class w k))).
End Repr.
