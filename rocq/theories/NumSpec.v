(** Specification for the number conversions: the value of a float as a rational number. *)
From Verif Require Import NumModel.
From Coq Require Import QArith Qpower.

(** the number a float stands for, if it is finite *)
Definition value (f : flt) : option Q := match f with Fin m e => Some (inject_Z m * (2 # 1) ^ e)%Q | _ => None end.
(** the number an object is, if it is an int or a finite float *)
Definition number (o : obj) : option Q := match o with OInt z _ => Some (inject_Z z) | OFloat f => value f | OOther _ _ _ => None end.
Definition is_int (o : obj) : Prop := match o with OInt _ _ => True | _ => False end.
(** q is a whole number *)
Definition whole (q : Q) : Prop := exists z : Z, (q == inject_Z z)%Q.
Definition same_number (a b : option Q) : Prop := match a, b with Some p, Some q => (p == q)%Q | _, _ => False end.
