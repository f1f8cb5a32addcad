(** Properties C87-C89: timestamps. *)
From Verif Require Import PyStrProof TimeModel TimeSpec TimeProof TimeProof2.
Open Scope Z_scope.

Lemma in_range_iff w : in_range w = true <-> datetime_range w.
Proof.
  unfold in_range, datetime_range. rewrite andb_true_iff, !Z.leb_le. change (instant (Fields 1 1 1 0 0 0 0)) with (-719162 * us_per_day). change (instant (Fields 9999 12 31 23 59 59 999999)) with ((3652059 - 719162) * us_per_day - 1).
  unfold epoch_day, us_per_day, us_per_s. pose proof (Z.div_mod w (86400 * 1000000) ltac:(lia)). pose proof (Z.mod_pos_bound w (86400 * 1000000) ltac:(lia)). lia.
Qed.
Lemma show_fields (dash mid : str) (us : bool) (z : str) w : in_range w = true -> year_1000 <= w ->
  shows dash mid (u ":") (if us then Some (u ".") else None) z (fields_of w) (strftime_date dash w ++ mid ++ strftime_time w ++ (if us then u "." ++ strftime_us w else []) ++ z).
Proof.
  intros R L. pose proof (year_range w R L) as Y. destruct (fields_spec w) as (V & _ & _). unfold valid in V. unfold fields_of, strftime_date, strftime_time in *. destruct (ymd w) as [[y m] d]. cbv zeta in *. cbn [f_year f_month f_day f_hour f_minute f_second f_us] in *.
  set (s := w mod us_per_day / us_per_s) in *. destruct V as (M & D & H & MI & S & U). assert (D' : 1 <= d <= 31).
  { assert (days_in_month y m <= 31); [|lia]. unfold days_in_month. destruct (m =? 2); [destruct (leap y); lia|]. destruct (existsb _ _); lia. }
  exists (dec (Z.to_N y)), (digits 2 m), (digits 2 d), (digits 2 (s / 3600)), (digits 2 (s / 60 mod 60)), (digits 2 (s mod 60)), (if us then u "." ++ strftime_us w else []).
  split; [apply dec_number, Y|]. repeat (split; [apply digits_number; [lia|cbn; lia]|]). split.
  - destruct us; [|reflexivity]. exists (strftime_us w). split; [apply digits_number; [lia|cbn; lia]|reflexivity].
  - rewrite <- !app_assoc. reflexivity.
Qed.

(** ** C87: what a timestamp says *)
(** timestamp_3339Z(t) is YYYY-MM-DDTHH:MM:SS[.ffffff]Z for the instant of t, in UTC and in the Gregorian calendar, with microseconds as documented; it raises TypeError exactly for
    an unsupported type, and ValueError or OverflowError exactly if the year is not between 1 and 9999.  The year has to be 1000 or later, and for a float want_microseconds has to be given. *)
Theorem C87_timestamp_3339Z_partial (now : Z) (local_offset mktime : Z -> Z) (t : targ) (want : option bool) :
  match arg_instant now mktime t with
  | None => timestamp_3339Z now mktime t want = Err TypeError
  | Some i => (~ datetime_range i -> exists e, (e = ValueError \/ e = OverflowError) /\ timestamp_3339Z now mktime t want = Err e) /\
              (datetime_range i -> exists s, timestamp_3339Z now mktime t want = Ok s /\
                (year_1000 <= i -> (forall us, t = TFloat us -> want <> None) ->
                 exists f, valid f /\ instant f = i /\ rfc3339 (arg_us t want) f s))
  end.
Proof.
  assert (G : forall i us e, (e = ValueError \/ e = OverflowError) ->
     let res := rbind (rmap (fun w => (w, us)) (in_year e i)) (fun '(w, want) =>
       let want := match want with None => true | Some b => b end in let s := strftime_date (u "-") w ++ u "T" ++ strftime_time w in Ok (if want then s ++ u "." ++ strftime_us w ++ u "Z" else s ++ u "Z")) in
     (~ datetime_range i -> exists e, (e = ValueError \/ e = OverflowError) /\ res = Err e) /\
     (datetime_range i -> exists s, res = Ok s /\ (year_1000 <= i -> exists f, valid f /\ instant f = i /\ rfc3339 (match us with None => true | Some b => b end) f s))).
  { intros i us e E. cbv zeta. unfold in_year. destruct (in_range i) eqn:R; cbn [rmap rbind].
    - split; [intros N; destruct N; apply in_range_iff, R|]. intros _. eexists. split; [reflexivity|]. intros L. exists (fields_of i). destruct (fields_spec i) as (V & I & _). split; [exact V|]. split; [exact I|].
      unfold rfc3339. set (b := match us with Some b => b | None => true end). pose proof (show_fields (u "-") (u "T") b (u "Z") i R L) as S. destruct b; rewrite <- !app_assoc in *; exact S.
    - split; [intros _; exists e; auto|]. intros D. apply in_range_iff in D. congruence. }
  unfold timestamp_3339Z. destruct t as [|s|us|gmt s|wall [off|]|]; cbn [from_struct arg_instant]; try reflexivity.
  - destruct (G now want OverflowError (or_intror eq_refl)) as (A & B). split; [exact A|]. intros D. destruct (B D) as (s & E & H). exists s. split; [exact E|]. intros L _. destruct want as [[|]|]; apply (H L).
  - destruct (G (s * us_per_s) (match want with None => Some false | b => b end) ValueError (or_introl eq_refl)) as (A & B). split; [exact A|]. intros D. destruct (B D) as (r & E & H). exists r. split; [exact E|]. intros L _. destruct want as [[|]|]; apply (H L).
  - destruct (G us (match want with None => Some false | b => b end) ValueError (or_introl eq_refl)) as (A & B). split; [exact A|]. intros D. destruct (B D) as (r & E & H). exists r. split; [exact E|]. intros L F. destruct want as [[|]|]; [apply (H L)|apply (H L)|destruct (F us eq_refl eq_refl)].
  - destruct gmt; cbn [arg_instant].
    + destruct (G (s * us_per_s) (Some (match want with Some b => b | None => false end)) ValueError (or_introl eq_refl)) as (A & B). split; [exact A|]. intros D. destruct (B D) as (r & E & H). exists r. split; [exact E|]. intros L _. destruct want as [[|]|]; apply (H L).
    + destruct (G (mktime (s * us_per_s)) (Some (match want with Some b => b | None => false end)) ValueError (or_introl eq_refl)) as (A & B). split; [exact A|]. intros D. destruct (B D) as (r & E & H). exists r. split; [exact E|]. intros L _. destruct want as [[|]|]; apply (H L).
  - destruct (G (wall - off) want OverflowError (or_intror eq_refl)) as (A & B). split; [exact A|]. intros D. destruct (B D) as (s & E & H). exists s. split; [exact E|]. intros L _. destruct want as [[|]|]; apply (H L).
  - destruct (G (mktime wall) want OverflowError (or_intror eq_refl)) as (A & B). split; [exact A|]. intros D. destruct (B D) as (s & E & H). exists s. split; [exact E|]. intros L _. destruct want as [[|]|]; apply (H L).
Qed.
(** A float never gets its microseconds, against the documentation: its type is looked at after it has been converted to a datetime *)
Theorem C87_float_microseconds_refuted now mktime : arg_us (TFloat 1500000) None = true /\ timestamp_3339Z now mktime (TFloat 1500000) None = Ok (u "1970-01-01T00:00:01Z").
Proof. split; vm_compute; reflexivity. Qed.
(** Before the year 1000 the year is not padded (strftime of glibc), which is not RFC 3339 *)
Theorem C87_early_year_refuted now mktime : timestamp_3339Z now mktime (TInt (-30610224001)) None = Ok (u "999-12-31T23:59:59Z").
Proof. vm_compute. reflexivity. Qed.
(** A struct_time for 1970-01-01 00:00:00 UTC whose tm_zone is "UTC" and not "GMT" is taken for local time; here the machine is five hours behind *)
Theorem C87_struct_time_refuted now : timestamp_3339Z now (fun wall => wall + 5 * 3600 * us_per_s) (TStruct false 0) None = Ok (u "1970-01-01T05:00:00Z").
Proof. vm_compute. reflexivity. Qed.
Example C87_example now mktime : timestamp_3339Z now mktime (TDatetime 951868799999999 (Some 3600000000)) None = Ok (u "2000-02-29T22:59:59.999999Z") /\
  datetime_range (951868799999999 - 3600000000) /\ year_1000 <= 951868799999999 - 3600000000.
Proof. split; [vm_compute; reflexivity|]. split; [split|]; vm_compute; discriminate. Qed.

(** ** C88: timestamps sort by time *)
(** Two results of timestamp_3339Z that both have microseconds are in the order of their instants (so they are equal only for the same instant); if both have none,
    in the order of the seconds. *)
Theorem C88_timestamps_sort_partial us (f g : fields) (s s' : str) : valid f -> valid g -> rfc3339 us f s -> rfc3339 us g s' ->
  str_ltb s s' = (if us then instant f <? instant g else instant f / 1000000 <? instant g / 1000000).
Proof. intros V V' S S'. rewrite (shows_instant _ _ _ _ _ _ _ _ _ V V' S S'). destruct us; reflexivity. Qed.
Theorem C88_timestamp_3339Z_sorts_partial now mktime t t' want want' i j s s' :
  arg_instant now mktime t = Some i -> arg_instant now mktime t' = Some j -> year_1000 <= i -> year_1000 <= j -> datetime_range i -> datetime_range j ->
  (forall us, t = TFloat us -> want <> None) -> (forall us, t' = TFloat us -> want' <> None) ->
  timestamp_3339Z now mktime t want = Ok s -> timestamp_3339Z now mktime t' want' = Ok s' -> arg_us t want = arg_us t' want' ->
  str_ltb s s' = (if arg_us t want then i <? j else i / 1000000 <? j / 1000000).
Proof.
  intros A A' Y Y' D D' F F' E E' U. pose proof (C87_timestamp_3339Z_partial now (fun z => z) mktime t want) as P. pose proof (C87_timestamp_3339Z_partial now (fun z => z) mktime t' want') as P'. rewrite A in P. rewrite A' in P'.
  destruct P as (_ & P). destruct P' as (_ & P'). destruct (P D) as (s0 & E0 & H). destruct (P' D') as (s0' & E0' & H'). rewrite E in E0. rewrite E' in E0'. injection E0 as <-. injection E0' as <-.
  destruct (H Y F) as (f & V & I & S). destruct (H' Y' F') as (g & V' & I' & S'). rewrite <- U in S'. rewrite (C88_timestamps_sort_partial _ f g s s' V V' S S'), I, I'. reflexivity.
Qed.
(** With and without microseconds mixed it is false: half a second later sorts before.  And the year 999 sorts after the year 1000. *)
Theorem C88_mixed_refuted now mktime : exists s s', timestamp_3339Z now mktime (TInt 1) None = Ok s /\ timestamp_3339Z now mktime (TFloat 1500000) (Some true) = Ok s' /\ str_ltb s' s = true.
Proof. eexists _, _. split; [vm_compute; reflexivity|]. split; vm_compute; reflexivity. Qed.
Theorem C88_early_year_refuted now mktime : exists s s', timestamp_3339Z now mktime (TInt (-30610224001)) None = Ok s /\ timestamp_3339Z now mktime (TInt (-30610224000)) None = Ok s' /\ str_ltb s' s = true.
Proof. eexists _, _. split; [vm_compute; reflexivity|]. split; vm_compute; reflexivity. Qed.

(** ** C89: timestamp_human *)
(** timestamp_human(t) is YYYY/MM/DD HH:MM:SS[.ffffff] for the local wall time at the instant of t (a datetime without time zone is shown as it is), with microseconds as documented - for floats too. *)
Definition human_wall (now : Z) (local_offset mktime : Z -> Z) (t : targ) : option Z :=
  match t with TDatetime wall None => Some wall | _ => option_map (fun i => i + local_offset i) (arg_instant now mktime t) end.
Theorem C89_timestamp_human_partial (now : Z) (local_offset mktime : Z -> Z) (t : targ) (want : option bool) :
  match human_wall now local_offset mktime t with
  | None => timestamp_human now local_offset mktime t want = Err TypeError
  | Some w => datetime_range w -> exists s, timestamp_human now local_offset mktime t want = Ok s /\
      (year_1000 <= w -> exists f, valid f /\ instant f = w /\ human (arg_us t want) f s)
  end.
Proof.
  assert (G : forall w us, datetime_range w ->
     exists s, (let want := match us with None => true | Some b => b end in let s := strftime_date (u "/") w ++ u " " ++ strftime_time w in if want then s ++ u "." ++ strftime_us w else s) = s /\
       (year_1000 <= w -> exists f, valid f /\ instant f = w /\ human (match us with None => true | Some b => b end) f s)).
  { intros w us D. apply in_range_iff in D. eexists. split; [reflexivity|]. intros L. exists (fields_of w). destruct (fields_spec w) as (V & I & _). split; [exact V|]. split; [exact I|].
    unfold human. cbv zeta. set (b := match us with Some b => b | None => true end). pose proof (show_fields (u "/") (u " ") b [] w D L) as S. destruct b; rewrite ?app_nil_r in S; rewrite <- ?app_assoc in *; exact S. }
  assert (R : forall e w, datetime_range w -> in_year e w = Ok w) by (intros e w D; unfold in_year; apply in_range_iff in D; rewrite D; reflexivity).
  unfold timestamp_human, human_wall. destruct t as [|s|us|gmt s|wall [off|]|]; cbn [from_struct arg_instant option_map]; try reflexivity.
  - intros D. change (now + local_offset now) with (to_local local_offset now) in *. rewrite R by exact D. cbn [rmap rbind]. destruct (G _ want D) as (r & <- & H). eexists. split; [reflexivity|]. intros L. destruct want as [[|]|]; apply (H L).
  - intros D. change (s * 1000000 + local_offset (s * 1000000)) with (to_local local_offset (s * us_per_s)) in *. rewrite R by exact D. cbn [rmap rbind]. destruct (G _ (match want with None => Some false | b => b end) D) as (r & <- & H). eexists. split; [reflexivity|]. intros L. destruct want as [[|]|]; apply (H L).
  - intros D. change (us + local_offset us) with (to_local local_offset us) in *. rewrite R by exact D. cbn [rmap rbind]. destruct (G _ (match want with None => Some true | b => b end) D) as (r & <- & H). eexists. split; [reflexivity|]. intros L. destruct want as [[|]|]; apply (H L).
  - destruct gmt; cbn [arg_instant option_map]; intros D.
    + change (s * 1000000 + local_offset (s * 1000000)) with (to_local local_offset (s * us_per_s)) in *. rewrite R by exact D. cbn [rmap rbind]. destruct (G _ (Some (match want with Some b => b | None => false end)) D) as (r & <- & H). eexists. split; [reflexivity|]. intros L. destruct want as [[|]|]; apply (H L).
    + change (mktime (s * 1000000) + local_offset (mktime (s * 1000000))) with (to_local local_offset (mktime (s * us_per_s))) in *. rewrite R by exact D. cbn [rmap rbind]. destruct (G _ (Some (match want with Some b => b | None => false end)) D) as (r & <- & H). eexists. split; [reflexivity|]. intros L. destruct want as [[|]|]; apply (H L).
  - intros D. change (wall - off + local_offset (wall - off)) with (to_local local_offset (wall - off)) in *. rewrite R by exact D. cbn [rmap rbind]. destruct (G _ want D) as (r & <- & H). eexists. split; [reflexivity|]. intros L. destruct want as [[|]|]; apply (H L).
  - intros D. cbn [rbind]. destruct (G _ want D) as (r & <- & H). eexists. split; [reflexivity|]. intros L. destruct want as [[|]|]; apply (H L).
Qed.
(** When clocks go back, an hour's timestamps appear twice: they do not tell the instants apart *)
Definition clocks_back (i : Z) : Z := if i <? 1636264800000000 then -4 * 3600000000 else -5 * 3600000000.
Theorem C89_clocks_back_refuted now mktime : exists s, timestamp_human now clocks_back mktime (TInt 1636263000) None = Ok s /\ timestamp_human now clocks_back mktime (TInt 1636266600) None = Ok s.
Proof. eexists. split; [vm_compute; reflexivity|]. vm_compute. reflexivity. Qed.
Example C89_example now mktime : timestamp_human now (fun _ => 3600000000) mktime (TFloat 951868799999999) None = Ok (u "2000/03/01 00:59:59.999999").
Proof. vm_compute. reflexivity. Qed.

Print Assumptions C87_timestamp_3339Z_partial.
Print Assumptions C88_timestamp_3339Z_sorts_partial.
Print Assumptions C89_timestamp_human_partial.
