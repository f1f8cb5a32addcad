(** Model of big/time.py: datetime_set_timezone, datetime_ensure_timezone, parse_timestamp_3339Z (lines 173-230).
    Time zone objects are an arbitrary type; dateutil.parser.parse is an arbitrary function. *)
From Verif Require Export PyStr.

(** datetime.datetime objects: the class (None is datetime itself, Some a subclass), the fields, tzinfo and fold *)
Record datetime (Z_ : Type) := Datetime {
  d_class : option nat; d_year : Z; d_month : Z; d_day : Z; d_hour : Z; d_minute : Z; d_second : Z; d_us : Z; d_tzinfo : option Z_; d_fold : Z }.
Arguments Datetime {Z_}. Arguments d_class {Z_}. Arguments d_year {Z_}. Arguments d_month {Z_}. Arguments d_day {Z_}. Arguments d_hour {Z_}.
Arguments d_minute {Z_}. Arguments d_second {Z_}. Arguments d_us {Z_}. Arguments d_tzinfo {Z_}. Arguments d_fold {Z_}.

(** Lib/_pydatetime.py _days_in_month, _is_leap, _check_date_fields, _check_time_fields *)
Definition is_leap (y : Z) : bool := ((y mod 4 =? 0) && (negb (y mod 100 =? 0) || (y mod 400 =? 0)))%Z.
Definition days_in (y m : Z) : Z := if ((m =? 2) && is_leap y)%Z then 29%Z else nth (Z.to_nat m) [0; 31; 28; 31; 30; 31; 30; 31; 31; 30; 31; 30; 31]%Z 0%Z.
Definition between (a x b : Z) : bool := ((a <=? x) && (x <=? b))%Z.

Section Zone.
  Context {Tz : Type} (truthy : Tz -> bool).                       (* bool(tzinfo) *)
  (** Lib/_pydatetime.py datetime.__new__: datetime(year, month, ...) *)
  Definition new_datetime (y mo d h mi s us : Z) (tz : option Tz) (fold : Z) : result (datetime Tz) :=
    if between 1 y 9999 && between 1 mo 12 && between 1 d (days_in y mo) && between 0 h 23 && between 0 mi 59 && between 0 s 59 && between 0 us 999999 && between 0 fold 1
    then Ok (Datetime None y mo d h mi s us tz fold) else Err ValueError.
  (** big/time.py:173-189 *)
  Definition datetime_set_timezone (d : datetime Tz) (timezone : option Tz) : result (datetime Tz) :=
    new_datetime (d_year d) (d_month d) (d_day d) (d_hour d) (d_minute d) (d_second d) (d_us d) timezone (d_fold d).
  (** big/time.py:191-204 *)
  Definition datetime_ensure_timezone (d : datetime Tz) (timezone : option Tz) : result (datetime Tz) :=
    match d_tzinfo d with
    | Some tz => if truthy tz then Ok d else datetime_set_timezone d timezone
    | None => datetime_set_timezone d timezone
    end.
  (** big/time.py:206-222; "assert d" holds for every datetime *)
  Definition parse_timestamp_3339Z (parse : str -> result (datetime Tz)) (s : str) (timezone : option Tz) : result (datetime Tz) :=
    rbind (parse s) (fun d => datetime_ensure_timezone d timezone).
End Zone.
