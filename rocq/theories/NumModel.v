(** Model of the number conversions in big/builtin.py. *)
From Verif Require Export PyStr.

(** A float: m * 2^e exactly, an infinity, or not a number.  (Which m and e fit in 64 bits does not matter here.) *)
Inductive flt := Fin (m e : Z) | Inf (negative : bool) | NaN.
(** An object.  An int (or bool); a float; anything else is given by what int(o) and float(o) do - so the parsing of strings is not modelled. *)
Inductive obj := OInt (z : Z) (is_bool : bool) | OFloat (f : flt) | OOther (id : Z) (int_ : result Z) (float_ : result flt).
(** int(f) for a float: truncated towards zero *)
Definition int_of_flt (f : flt) : result Z :=
  match f with
  | Fin m e => Ok (if (0 <=? e)%Z then (m * 2 ^ e)%Z else Z.quot m (2 ^ (- e)))
  | Inf _ => Err OverflowError
  | NaN => Err ValueError
  end.
(** z == f for an int and a float: exact *)
Definition int_eq_flt (z : Z) (f : flt) : bool :=
  match f with Fin m e => if (0 <=? e)%Z then (z =? m * 2 ^ e)%Z else (z * 2 ^ (- e) =? m)%Z | _ => false end.

Section Builtin.
  (** float(z) for an int: rounded, or OverflowError *)
  Context (float_of_int : Z -> result flt).
  Definition py_int (o : obj) : result Z :=
    match o with OInt z _ => Ok z | OFloat f => int_of_flt f | OOther _ i _ => i end.
  Definition py_float (o : obj) : result flt :=
    match o with OInt z _ => float_of_int z | OFloat f => Ok f | OOther _ _ f => f end.
  (** except (TypeError, ValueError) *)
  Definition caught (e : exn) : bool := match e with TypeError | ValueError => true | _ => false end.
  (** big/builtin.py:42-52 *)
  Definition try_float (o : obj) : result bool := match py_float o with Ok _ => Ok true | Err e => if caught e then Ok false else Err e end.
  (** big/builtin.py:54-64 *)
  Definition try_int (o : obj) : result bool := match py_int o with Ok _ => Ok true | Err e => if caught e then Ok false else Err e end.
  (** the default: None is _sentinel *)
  Definition fallback (o : obj) (default : option obj) : obj := match default with Some d => d | None => o end.
  (** big/builtin.py:68-81 *)
  Definition get_float (o : obj) (default : option obj) : result obj :=
    match py_float o with Ok f => Ok (OFloat f) | Err e => if caught e then Ok (fallback o default) else Err e end.
  (** big/builtin.py:83-96 *)
  Definition get_int (o : obj) (default : option obj) : result obj :=
    match py_int o with Ok z => Ok (OInt z false) | Err e => if caught e then Ok (fallback o default) else Err e end.
  (** big/builtin.py:115-119: a float *)
  Definition goif_float (f : flt) : result obj :=
    match int_of_flt f with Ok z => if int_eq_flt z f then Ok (OInt z false) else Ok (OFloat f) | Err e => Err e end.
  (** big/builtin.py:98-131; int(o) of an int that is not a plain int (a bool) is not called: o is returned unchanged *)
  Definition get_int_or_float (o : obj) (default : option obj) : result obj :=
    match o with
    | OInt z b => Ok (OInt z b)
    | OFloat f => goif_float f
    | OOther _ _ _ =>
        match py_int o with
        | Ok z => Ok (OInt z false)
        | Err e =>
            if caught e then
              match rbind (py_float o) goif_float with
              | Ok r => Ok r
              | Err e => if caught e then Ok (fallback o default) else Err e
              end
            else Err e
        end
    end.
End Builtin.
