(** C102, C103: time zones of datetime objects; timestamps read back. *)
From Verif Require Import PyStrProof DateSpec TimeProof TimeProof2 TimeProps.
Open Scope Z_scope.

Lemma days_in_is y m : 1 <= m <= 12 -> days_in y m = days_in_month y m.
Proof.
  intros H. unfold days_in, days_in_month, is_leap, leap.
  assert (E : (y mod 4 =? 0) && (negb (y mod 100 =? 0) || (y mod 400 =? 0)) = (y mod 4 =? 0) && negb (y mod 100 =? 0) || (y mod 400 =? 0)).
  { destruct (y mod 4 =? 0) eqn:A, (y mod 100 =? 0) eqn:B, (y mod 400 =? 0) eqn:C; auto.
    all: apply Z.eqb_eq in C; apply Z.eqb_neq in A; exfalso; apply A;
      apply Z.mod_divide in C; try lia; apply Z.mod_divide; try lia; eapply Z.divide_trans; [|exact C]; now exists 100. }
  rewrite E. assert (C : m = 1 \/ m = 2 \/ m = 3 \/ m = 4 \/ m = 5 \/ m = 6 \/ m = 7 \/ m = 8 \/ m = 9 \/ m = 10 \/ m = 11 \/ m = 12) by lia.
  repeat destruct C as [C|C]; subst m; cbn; auto.
Qed.
Lemma between_iff a x b : between a x b = true <-> a <= x <= b.
Proof. unfold between. rewrite andb_true_iff. lia. Qed.
Lemma new_ok {Tz} (d : datetime Tz) tz : exists_datetime d ->
  datetime_set_timezone d tz = Ok (Datetime None (d_year d) (d_month d) (d_day d) (d_hour d) (d_minute d) (d_second d) (d_us d) tz (d_fold d)).
Proof.
  intros (Y & (M & D & H & MI & S & U) & F). cbn in *. unfold datetime_set_timezone, new_datetime. rewrite days_in_is by exact M.
  match goal with |- (if ?c then _ else _) = _ => assert (E : c = true) end.
  { rewrite !andb_true_iff, !between_iff. lia. }
  now rewrite E.
Qed.

(** ** C102 *)
Theorem C102_set_timezone {Tz} (d : datetime Tz) tz : exists_datetime d ->
  exists d', datetime_set_timezone d tz = Ok d' /\ with_timezone tz d d' /\ exists_datetime d'.
Proof. intros H. eexists. split. apply (new_ok d tz H). split; [repeat split|exact H]. Qed.
(** setting another one later is as if the first had not been set *)
Theorem C102_set_twice {Tz} (d d' : datetime Tz) tz tz' : exists_datetime d -> datetime_set_timezone d tz = Ok d' ->
  datetime_set_timezone d' tz' = datetime_set_timezone d tz'.
Proof. intros H. rewrite (new_ok d tz H). intros [= <-]. reflexivity. Qed.
(** datetime_ensure_timezone: d itself if it has one, else as datetime_set_timezone; the result has a time zone unless none was offered, and
    doing it again - with whatever time zone - changes nothing. *)
Theorem C102_ensure_timezone {Tz} (truthy : Tz -> bool) (d : datetime Tz) tz : exists_datetime d -> (forall z, truthy z = true) ->
  match d_tzinfo d with
  | Some _ => datetime_ensure_timezone truthy d tz = Ok d
  | None => exists d', datetime_ensure_timezone truthy d tz = Ok d' /\ with_timezone tz d d' /\ exists_datetime d'
  end.
Proof.
  intros H T. unfold datetime_ensure_timezone. destruct (d_tzinfo d) as [z|]; [now rewrite T|]. now apply C102_set_timezone.
Qed.
Theorem C102_ensure_idempotent {Tz} (truthy : Tz -> bool) (d d' : datetime Tz) z tz' : exists_datetime d -> (forall z, truthy z = true) ->
  datetime_ensure_timezone truthy d (Some z) = Ok d' -> d_tzinfo d' <> None /\ datetime_ensure_timezone truthy d' tz' = Ok d'.
Proof.
  intros H T E. pose proof (C102_ensure_timezone truthy d (Some z) H T) as P. destruct (d_tzinfo d) as [z0|] eqn:Ez.
  - rewrite P in E. injection E as <-. split; [congruence|]. unfold datetime_ensure_timezone. now rewrite Ez, T.
  - destruct P as (d2 & P & (_ & _ & _ & _ & _ & _ & _ & _ & _ & W) & _). rewrite P in E. injection E as <-. split; [congruence|]. unfold datetime_ensure_timezone. now rewrite W, T.
Qed.
(** "If d has a timezone set, returns d" is false for a tzinfo object that is false: its time zone is replaced. *)
Theorem C102_false_timezone_refuted : exists (d d' : datetime bool), exists_datetime d /\ d_tzinfo d = Some false /\
  datetime_ensure_timezone (fun b => b) d (Some true) = Ok d' /\ d_tzinfo d' = Some true.
Proof.
  exists (Datetime None 2024 2 29 1 2 3 4 (Some false) 0). eexists. split; [|split; [reflexivity|split; reflexivity]].
  repeat split; cbn; try lia.
Qed.
Example C102_example : exists_datetime (Datetime (Some 3%nat) 2024 2 29 23 59 59 999999 None 1 : datetime nat) /\
  datetime_ensure_timezone (fun _ => true) (Datetime (Some 3%nat) 2024 2 29 23 59 59 999999 None 1) (Some 5%nat) = Ok (Datetime None 2024 2 29 23 59 59 999999 (Some 5%nat) 1).
Proof. split; [|reflexivity]. repeat split; cbn; lia. Qed.

(** ** C103 *)
Lemma f_year_range f : valid f -> datetime_range (instant f) -> 1 <= f_year f <= 9999.
Proof.
  intros V [L U].
  assert (V1 : valid (Fields 1 1 1 0 0 0 0)) by (repeat split; cbn; lia).
  assert (V2 : valid (Fields 9999 12 31 23 59 59 999999)) by (repeat split; cbn; lia).
  pose proof (instant_lt _ _ V V1) as A. pose proof (instant_lt _ _ V2 V) as B.
  destruct (Z.ltb_spec (instant f) (instant (Fields 1 1 1 0 0 0 0))) as [?|_]; [lia|].
  destruct (Z.ltb_spec (instant (Fields 9999 12 31 23 59 59 999999)) (instant f)) as [?|_]; [lia|].
  unfold field_list in *. cbn [f_year] in *. split.
  - destruct (Z.lt_ge_cases (f_year f) 1) as [H|H]; [|lia]. enough (E : true = false) by discriminate. rewrite <- A. symmetry. apply lexz_cons. auto.
  - destruct (Z.lt_ge_cases 9999 (f_year f)) as [H|H]; [|lia]. enough (E : true = false) by discriminate. rewrite <- B. symmetry. apply lexz_cons. auto.
Qed.

(** What timestamp_3339Z writes, parse_timestamp_3339Z reads: a datetime in UTC for the same instant (without the microseconds if they are not shown), whatever default
    time zone is given.  (The year has to be 1000 or later, and for a float want_microseconds has to be given: see C87.) *)
Theorem C103_round_trip_partial {Tz} (truthy : Tz -> bool) (utc : Tz) parse now mktime t want i s timezone :
  understands utc parse -> truthy utc = true ->
  arg_instant now mktime t = Some i -> datetime_range i -> year_1000 <= i -> (forall us, t = TFloat us -> want <> None) ->
  timestamp_3339Z now mktime t want = Ok s ->
  exists d, parse_timestamp_3339Z truthy parse s timezone = Ok d /\ exists_datetime d /\ d_tzinfo d = Some utc /\
    utc_instant d = if arg_us t want then i else i / 1000000 * 1000000.
Proof.
  intros P T A D Y F E. pose proof (C87_timestamp_3339Z_partial now (fun z => z) mktime t want) as Q. rewrite A in Q. destruct Q as (_ & Q).
  destruct (Q D) as (s' & E' & H). rewrite E in E'. injection E' as <-. destruct (H Y F) as (f & V & I & S). clear H Q.
  assert (Yr : 1 <= f_year f <= 9999) by (apply f_year_range; [exact V|now rewrite I]).
  unfold parse_timestamp_3339Z. rewrite (P _ _ _ V Yr S). cbn [rbind]. unfold datetime_ensure_timezone. cbn [d_tzinfo]. rewrite T.
  eexists. split; [reflexivity|]. destruct V as (M & Dy & Hh & Mi & Ss & U). repeat split; cbn [d_year d_month d_day d_hour d_minute d_second d_us d_fold f_month f_day f_hour f_minute f_second f_us f_year]; try lia.
  1-2: destruct (arg_us t want); lia.
  unfold utc_instant. cbn [d_year d_month d_day d_hour d_minute d_second d_us]. destruct (arg_us t want).
  - rewrite <- I. now destruct f.
  - rewrite <- I. destruct f as [y m d h mi sc us]. unfold instant. cbn [f_year f_month f_day f_hour f_minute f_second f_us] in *.
    set (k := (((ordinal y m d - ordinal 1970 1 1) * 24 + h) * 60 + mi)).
    replace (k * 60000000 + sc * 1000000 + us) with (us + (k * 60 + sc) * 1000000) by ring. rewrite Z.div_add by lia. rewrite (Z.div_small us) by lia. ring.
Qed.
(** A string without time zone gets the default one, and nothing else changes. *)
Theorem C103_default_timezone {Tz} (truthy : Tz -> bool) parse s (d : datetime Tz) timezone : parse s = Ok d -> exists_datetime d -> d_tzinfo d = None ->
  exists d', parse_timestamp_3339Z truthy parse s timezone = Ok d' /\ with_timezone timezone d d'.
Proof.
  intros P H N. unfold parse_timestamp_3339Z. rewrite P. cbn [rbind]. unfold datetime_ensure_timezone. rewrite N. destruct (C102_set_timezone d timezone H) as (d' & E & W & _). eauto.
Qed.
(** A string dateutil cannot read: its exception. *)
Theorem C103_errors {Tz} (truthy : Tz -> bool) parse s (e : exn) (timezone : option Tz) : parse s = Err e -> parse_timestamp_3339Z truthy parse s timezone = Err e.
Proof. intros P. unfold parse_timestamp_3339Z. now rewrite P. Qed.

(** There is such a parser (so the hypothesis of C103 can be met): read the fields at their places. *)
Definition at_ (k n : nat) (s : str) : Z := int_of (firstn n (skipn k s)).
Definition read (s : str) : result (datetime unit) :=
  Ok (Datetime None (at_ 0 4 s) (at_ 5 2 s) (at_ 8 2 s) (at_ 11 2 s) (at_ 14 2 s) (at_ 17 2 s) (if str_eqb (firstn 1 (skipn 19 s)) (u ".") then at_ 20 6 s else 0) (Some tt) 0).
Lemma length_2 (l : str) : length l = 2%nat -> exists a b, l = [a; b].
Proof. destruct l as [|a [|b [|]]]; try discriminate; eauto. Qed.
Lemma length_4 (l : str) : length l = 4%nat -> exists a b c d, l = [a; b; c; d].
Proof. destruct l as [|a [|b [|c [|d [|]]]]]; try discriminate; eauto. Qed.
Lemma length_6 (l : str) : length l = 6%nat -> exists a b c d e f, l = [a; b; c; d; e; f].
Proof. destruct l as [|a [|b [|c [|d [|e [|f [|]]]]]]]; try discriminate; eauto 10. Qed.
Lemma C103_understands : understands tt read.
Proof.
  intros us f s V Y (y & mo & d & h & mi & sc & frac & (Ly & _ & Iy) & (Lmo & _ & Imo) & (Ld & _ & Id) & (Lh & _ & Ih) & (Lmi & _ & Imi) & (Ls & _ & Is) & Hf & ->).
  apply length_4 in Ly as (y1 & y2 & y3 & y4 & ->). apply length_2 in Lmo as (m1 & m2 & ->). apply length_2 in Ld as (d1 & d2 & ->).
  apply length_2 in Lh as (h1 & h2 & ->). apply length_2 in Lmi as (i1 & i2 & ->). apply length_2 in Ls as (s1 & s2 & ->).
  destruct us.
  - destruct Hf as (n & (Ln & _ & In_) & ->). apply length_6 in Ln as (n1 & n2 & n3 & n4 & n5 & n6 & ->).
    rewrite <- Iy, <- Imo, <- Id, <- Ih, <- Imi, <- Is, <- In_. reflexivity.
  - subst frac. rewrite <- Iy, <- Imo, <- Id, <- Ih, <- Imi, <- Is. reflexivity.
Qed.
Example C103_example now mktime tz : exists s,
  timestamp_3339Z now mktime (TDatetime 951868799999999 (Some 3600000000)) None = Ok s /\
  parse_timestamp_3339Z (fun _ => true) read s tz = Ok (Datetime None 2000 2 29 22 59 59 999999 (Some tt) 0).
Proof. eexists. split; vm_compute; reflexivity. Qed.

Print Assumptions C102_set_timezone. Print Assumptions C102_ensure_timezone. Print Assumptions C102_ensure_idempotent. Print Assumptions C103_round_trip_partial. Print Assumptions C103_default_timezone.
