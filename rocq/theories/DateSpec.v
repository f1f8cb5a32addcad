(** Specification for C102, C103. *)
From Verif Require Export TimeModel TimeSpec DateModel.
Open Scope Z_scope.

(** a datetime object that exists: Python checks these when it makes one *)
Definition exists_datetime {Tz} (d : datetime Tz) : Prop :=
  1 <= d_year d <= 9999 /\ valid (Fields (d_year d) (d_month d) (d_day d) (d_hour d) (d_minute d) (d_second d) (d_us d)) /\ (d_fold d = 0 \/ d_fold d = 1).
(** d' is a plain datetime identical to d but with the time zone tz *)
Definition with_timezone {Tz} (tz : option Tz) (d d' : datetime Tz) : Prop :=
  d_class d' = None /\ d_year d' = d_year d /\ d_month d' = d_month d /\ d_day d' = d_day d /\ d_hour d' = d_hour d /\ d_minute d' = d_minute d /\
  d_second d' = d_second d /\ d_us d' = d_us d /\ d_fold d' = d_fold d /\ d_tzinfo d' = tz.
(** dateutil.parser.parse understands RFC 3339 in UTC: the result is the datetime written there, with its UTC time zone *)
Definition understands {Tz} (utc : Tz) (parse : str -> result (datetime Tz)) : Prop :=
  forall us f s, valid f -> 1 <= f_year f <= 9999 -> rfc3339 us f s ->
  parse s = Ok (Datetime None (f_year f) (f_month f) (f_day f) (f_hour f) (f_minute f) (f_second f) (if us then f_us f else 0) (Some utc) 0).
(** the instant of a datetime in UTC *)
Definition utc_instant {Tz} (d : datetime Tz) : Z := instant (Fields (d_year d) (d_month d) (d_day d) (d_hour d) (d_minute d) (d_second d) (d_us d)).
