(** Specification for timestamps: the calendar, and what a timestamp says. *)
From Verif Require Import PyStr.
Open Scope Z_scope.

Definition leap (y : Z) : bool := ((y mod 4 =? 0) && negb (y mod 100 =? 0)) || (y mod 400 =? 0).
Definition days_in_month (y m : Z) : Z :=
  if m =? 2 then (if leap y then 29 else 28) else if existsb (Z.eqb m) [4; 6; 9; 11] then 30 else 31.
(** the days from 1 January of year 1 to day d of month m of year y, both included *)
Definition ordinal (y m d : Z) : Z :=
  365 * (y - 1) + (y - 1) / 4 - (y - 1) / 100 + (y - 1) / 400 + fold_right Z.add 0 (map (fun i => days_in_month y (Z.of_nat i)) (seq 1 (Z.to_nat m - 1))) + d.
Record fields := Fields { f_year : Z; f_month : Z; f_day : Z; f_hour : Z; f_minute : Z; f_second : Z; f_us : Z }.
Definition valid (f : fields) : Prop :=
  1 <= f_month f <= 12 /\ 1 <= f_day f <= days_in_month (f_year f) (f_month f) /\ 0 <= f_hour f < 24 /\ 0 <= f_minute f < 60 /\ 0 <= f_second f < 60 /\ 0 <= f_us f < 1000000.
(** microseconds from 1970-01-01 00:00:00 *)
Definition instant (f : fields) : Z :=
  (((ordinal (f_year f) (f_month f) (f_day f) - ordinal 1970 1 1) * 24 + f_hour f) * 60 + f_minute f) * 60000000 + f_second f * 1000000 + f_us f.
(** s is n in exactly w decimal digits *)
Definition number (w : nat) (n : Z) (s : str) : Prop := length s = w /\ forallb is_digit s = true /\ int_of s = n.
(** YYYY-MM-DDTHH:MM:SS[.ffffff]Z, or with other punctuation *)
Definition shows (dash mid colon : str) (us : option str) (z : str) (f : fields) (s : str) : Prop :=
  exists y mo d h mi sec frac,
    number 4 (f_year f) y /\ number 2 (f_month f) mo /\ number 2 (f_day f) d /\ number 2 (f_hour f) h /\ number 2 (f_minute f) mi /\ number 2 (f_second f) sec /\
    match us with Some point => exists n, number 6 (f_us f) n /\ frac = point ++ n | None => frac = [] end /\
    s = y ++ dash ++ mo ++ dash ++ d ++ mid ++ h ++ colon ++ mi ++ colon ++ sec ++ frac ++ z.
Definition rfc3339 (us : bool) (f : fields) (s : str) : Prop := shows (u "-") (u "T") (u ":") (if us then Some (u ".") else None) (u "Z") f s.
Definition human (us : bool) (f : fields) (s : str) : Prop := shows (u "/") (u " ") (u ":") (if us then Some (u ".") else None) [] f s.

(** The argument t of the timestamp functions as documented (the types of TimeModel): the instant it stands for, and whether microseconds are shown *)
From Verif Require Import TimeModel.
Section Arg.
  Context (now : Z) (mktime : Z -> Z).
  Definition arg_instant (t : targ) : option Z :=
    match t with
    | TNone => Some now
    | TInt s => Some (s * 1000000)
    | TFloat us => Some us
    | TStruct true s => Some (s * 1000000)
    | TStruct false s => Some (mktime (s * 1000000))
    | TDatetime wall None => Some (mktime wall)
    | TDatetime wall (Some offset) => Some (wall - offset)
    | TOther => None
    end.
  Definition arg_us (t : targ) (want : option bool) : bool :=
    match want, t with Some b, _ => b | None, (TNone | TFloat _ | TDatetime _ _) => true | None, _ => false end.
  (** the first instant of the year 1000, and the instants a datetime can show *)
  Definition year_1000 : Z := instant (Fields 1000 1 1 0 0 0 0).
  Definition datetime_range (w : Z) : Prop := instant (Fields 1 1 1 0 0 0 0) <= w <= instant (Fields 9999 12 31 23 59 59 999999).
End Arg.
