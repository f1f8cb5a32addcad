(** Model of big/time.py: timestamp_human, timestamp_3339Z.
    A date and time without time zone ("wall time") is its number of microseconds from 1970-01-01 00:00:00; an instant is a wall time in UTC.
    The time zone of the machine is given by two functions.  parse_timestamp_3339Z, datetime_set_timezone and datetime_ensure_timezone are in DateModel.v.  Not modelled: leap seconds, time zones that are not a
    fixed offset at a given instant. *)
From Verif Require Export PyStr.

Definition us_per_s : Z := 1000000.
Definition us_per_day : Z := 86400 * us_per_s.
Definition days_before_month (m : Z) : Z := nth (Z.to_nat m) [0; 0; 31; 59; 90; 120; 151; 181; 212; 243; 273; 304; 334]%Z 0%Z.
Definition month_days (m : Z) : Z := nth (Z.to_nat m) [0; 31; 28; 31; 30; 31; 30; 31; 31; 30; 31; 30; 31]%Z 0%Z.
(** Lib/_pydatetime.py _ord2ymd: year, month and day of a day number; day 1 is 1 January of year 1 *)
Definition ord2ymd (n : Z) : Z * Z * Z :=
  (let n := n - 1 in
   let n400 := n / 146097 in let n := n mod 146097 in
   let n100 := n / 36524 in let n := n mod 36524 in
   let n4 := n / 1461 in let n := n mod 1461 in
   let n1 := n / 365 in let n := n mod 365 in
   let year := n400 * 400 + 1 + n100 * 100 + n4 * 4 + n1 in
   if (n1 =? 4) || (n100 =? 4) then (year - 1, 12, 31)
   else
     let leap := (n1 =? 3) && (negb (n4 =? 24) || (n100 =? 3)) in
     let month := (n + 50) / 32 in
     let preceding := days_before_month month + (if (2 <? month) && leap then 1 else 0) in
     if n <? preceding
     then let month := month - 1 in let preceding := preceding - (month_days month + (if (month =? 2) && leap then 1 else 0)) in (year, month, n - preceding + 1)
     else (year, month, n - preceding + 1))%Z.
Definition epoch_day : Z := 719163.
Definition ymd (wall : Z) : Z * Z * Z := ord2ymd (wall / us_per_day + epoch_day).
Definition year_of (wall : Z) : Z := fst (fst (ymd wall)).

(** decimal with at least w digits *)
Definition zfill (w : nat) (s : str) : str := repeat (c1 "0") (w - length s) ++ s.
Definition digits (w : nat) (n : Z) : str := zfill w (dec (Z.to_N n)).
(** strftime: %Y is not padded (glibc), %m %d %H %M %S are two digits *)
Definition strftime_date (sep : str) (wall : Z) : str :=
  let '(y, m, d) := ymd wall in dec (Z.to_N y) ++ sep ++ digits 2 m ++ sep ++ digits 2 d.
Definition strftime_time (wall : Z) : str :=
  (let s := (wall mod us_per_day) / us_per_s in digits 2 (s / 3600) ++ u ":" ++ digits 2 (s / 60 mod 60) ++ u ":" ++ digits 2 (s mod 60))%Z.
Definition strftime_us (wall : Z) : str := digits 6 (wall mod us_per_s).

(** datetime objects are between the years 1 and 9999 *)
Definition in_range (wall : Z) : bool := ((1 <=? wall / us_per_day + epoch_day) && (wall / us_per_day + epoch_day <=? 3652059))%Z.
(** The argument t: None; an int; a float (rounded to microseconds); a struct_time (its tm_zone is "GMT" or not, and its wall time);
    a datetime: wall time and, if it is aware, the offset of its time zone; something else *)
Inductive targ := TNone | TInt (s : Z) | TFloat (us : Z) | TStruct (gmt : bool) (s : Z) | TDatetime (wall : Z) (offset : option Z) | TOther.
Section Zone.
  (** the current instant; the offset of the local time zone at an instant; time.mktime: the instant for a local wall time *)
  Context (now : Z) (local_offset : Z -> Z) (mktime : Z -> Z).
  Definition to_local (instant : Z) : Z := (instant + local_offset instant)%Z.
  Definition in_year (e : exn) (wall : Z) : result Z := if in_range wall then Ok wall else Err e.
  (** big/time.py:76-82 and 140-145: a struct_time becomes a number of seconds *)
  Definition from_struct (t : targ) (want : option bool) : targ * option bool :=
    match t with
    | TStruct gmt s => (if gmt then TInt s else TFloat (mktime (s * us_per_s)), Some (match want with Some b => b | None => false end))
    | _ => (t, want)
    end.
  (** big/time.py:48-103 *)
  Definition timestamp_human (t : targ) (want : option bool) : result str :=
    let '(t, want) := from_struct t want in
    rbind (match t with
           | TNone => rmap (fun w => (w, want)) (in_year OverflowError (to_local now))
           | TInt s => rmap (fun w => (w, match want with None => Some false | b => b end)) (in_year ValueError (to_local (s * us_per_s)))
           | TFloat us => rmap (fun w => (w, match want with None => Some true | b => b end)) (in_year ValueError (to_local us))
           | TDatetime wall None => Ok (wall, want)
           | TDatetime wall (Some off) => rmap (fun w => (w, want)) (in_year OverflowError (to_local (wall - off)))
           | _ => Err TypeError
           end) (fun '(w, want) =>
    let want := match want with None => true | Some b => b end in
    let s := strftime_date (u "/") w ++ u " " ++ strftime_time w in
    Ok (if want then s ++ u "." ++ strftime_us w else s)).
  (** big/time.py:110-171; the type of t is looked at (line 152) after t has become a datetime *)
  Definition timestamp_3339Z (t : targ) (want : option bool) : result str :=
    let '(t, want) := from_struct t want in
    rbind (match t with
           | TNone => rmap (fun w => (w, want)) (in_year OverflowError now)
           | TInt s => rmap (fun w => (w, match want with None => Some false | b => b end)) (in_year ValueError (s * us_per_s))
           | TFloat us => rmap (fun w => (w, match want with None => Some false | b => b end)) (in_year ValueError us)
           | TDatetime wall None => rmap (fun w => (w, want)) (in_year OverflowError (mktime wall))
           | TDatetime wall (Some off) => rmap (fun w => (w, want)) (in_year OverflowError (wall - off))
           | _ => Err TypeError
           end) (fun '(w, want) =>
    let want := match want with None => true | Some b => b end in
    let s := strftime_date (u "-") w ++ u "T" ++ strftime_time w in
    Ok (if want then s ++ u "." ++ strftime_us w ++ u "Z" else s ++ u "Z")).
End Zone.
