(** C87-C89, exactly: what timestamp_3339Z and timestamp_human return for every argument, every
    year and every want_microseconds - also where this is not what is documented. *)
From Verif Require Import PyStrProof TimeModel TimeSpec TimeProof TimeProof2 TimeProps.
Open Scope Z_scope.

(** s is n in decimal, as short as possible *)
Definition decimal (n : Z) (s : str) : Prop := exists w, number (S w) n s /\ (n = 0 /\ w = 0%nat \/ 10 ^ Z.of_nat w <= n).
(** a timestamp, with the year as short as possible *)
Definition shows_short (dash mid colon : str) (us : option str) (z : str) (f : fields) (s : str) : Prop :=
  exists y mo d h mi sec frac,
    decimal (f_year f) y /\ number 2 (f_month f) mo /\ number 2 (f_day f) d /\ number 2 (f_hour f) h /\ number 2 (f_minute f) mi /\ number 2 (f_second f) sec /\
    match us with Some point => exists n, number 6 (f_us f) n /\ frac = point ++ n | None => frac = [] end /\
    s = y ++ dash ++ mo ++ dash ++ d ++ mid ++ h ++ colon ++ mi ++ colon ++ sec ++ frac ++ z.
(** whether timestamp_3339Z shows microseconds: not for floats, unless asked to *)
Definition us_3339Z (t : targ) (want : option bool) : bool :=
  match want, t with Some b, _ => b | None, (TNone | TDatetime _ _) => true | None, _ => false end.

Lemma year_1_9999 w : in_range w = true -> 1 <= f_year (fields_of w) <= 9999.
Proof.
  intros R. destruct (fields_spec w) as (V & I & _). unfold in_range in R. apply andb_prop in R. rewrite !Z.leb_le in R.
  unfold fields_of, ymd in *. destruct (ord2ymd (w / us_per_day + epoch_day)) as [[y m] d] eqn:O. destruct (ord2ymd_spec _ _ _ _ O) as (M & D & ORD). cbn [f_year] in *.
  rewrite ordinal_eq in ORD. destruct (before_month_end y m M) as [E1 E2]. split.
  - destruct (Z.le_gt_cases 1 y) as [H|H]; [exact H|]. pose proof (before_year_mono y 1 ltac:(lia)) as B. change (before_year 1) with 0 in B. lia.
  - destruct (Z.le_gt_cases y 9999) as [H|H]; [exact H|]. pose proof (before_year_mono 9999 y ltac:(lia)) as B. change (before_year 9999 + (if leap 9999 then 366 else 365)) with 3652059 in B. lia.
Qed.
Lemma dec_decimal n : 1 <= n <= 9999 -> decimal n (dec (Z.to_N n)).
Proof.
  intros R. destruct (dec_spec (Z.to_N n)) as (A & B & C).
  assert (L : forall k, (0 < k)%nat -> n < 10 ^ Z.of_nat k -> (length (dec (Z.to_N n)) <= k)%nat).
  { intros k K H. apply dec_aux_length; [|exact K]. apply N2Z.inj_lt. rewrite N2Z.inj_pow, Z2N.id by lia. rewrite nat_N_Z. exact H. }
  pose proof (int_of_bound _ B) as IB. rewrite A, Z2N.id in IB by lia.
  pose proof (L 1%nat ltac:(lia)) as L1. pose proof (L 2%nat ltac:(lia)) as L2. pose proof (L 3%nat ltac:(lia)) as L3. pose proof (L 4%nat ltac:(lia)) as L4.
  change (10 ^ Z.of_nat 1) with 10 in L1. change (10 ^ Z.of_nat 2) with 100 in L2. change (10 ^ Z.of_nat 3) with 1000 in L3. change (10 ^ Z.of_nat 4) with 10000 in L4.
  destruct (length (dec (Z.to_N n))) as [|[|[|[|[|k]]]]] eqn:E; cbn in IB; try lia; [exists 0%nat|exists 1%nat|exists 2%nat|exists 3%nat];
    (split; [split; [exact E|split; [exact B|rewrite A; lia]]|right; cbn; lia]).
Qed.
Lemma show_short (dash mid : str) (us : bool) (z : str) w : in_range w = true ->
  shows_short dash mid (u ":") (if us then Some (u ".") else None) z (fields_of w) (strftime_date dash w ++ mid ++ strftime_time w ++ (if us then u "." ++ strftime_us w else []) ++ z).
Proof.
  intros R. pose proof (year_1_9999 w R) as Y. destruct (fields_spec w) as (V & _ & _). unfold valid in V. unfold fields_of, strftime_date, strftime_time in *. destruct (ymd w) as [[y m] d]. cbv zeta in *. cbn [f_year f_month f_day f_hour f_minute f_second f_us] in *.
  set (s := w mod us_per_day / us_per_s) in *. destruct V as (M & D & H & MI & S & U). assert (D' : 1 <= d <= 31).
  { assert (days_in_month y m <= 31); [|lia]. unfold days_in_month. destruct (m =? 2); [destruct (leap y); lia|]. destruct (existsb _ _); lia. }
  exists (dec (Z.to_N y)), (digits 2 m), (digits 2 d), (digits 2 (s / 3600)), (digits 2 (s / 60 mod 60)), (digits 2 (s mod 60)), (if us then u "." ++ strftime_us w else []).
  split; [apply dec_decimal, Y|]. repeat (split; [apply digits_number; [lia|cbn; lia]|]). split.
  - destruct us; [|reflexivity]. exists (strftime_us w). split; [apply digits_number; [lia|cbn; lia]|reflexivity].
  - rewrite <- !app_assoc. reflexivity.
Qed.

(** C87 for every argument: TypeError exactly for unsupported types, ValueError (int, float,
    struct_time) or OverflowError (None, datetime) exactly outside the years 1 to 9999; otherwise
    the instant of t, with the year in as few digits as possible and microseconds for None and
    datetimes (as documented) but not for floats, unless want_microseconds says. *)
Theorem C87_timestamp_3339Z_exact (now : Z) (mktime : Z -> Z) (t : targ) (want : option bool) :
  match arg_instant now mktime t with
  | None => timestamp_3339Z now mktime t want = Err TypeError
  | Some i =>
      (~ datetime_range i -> timestamp_3339Z now mktime t want = Err (match t with TNone | TDatetime _ _ => OverflowError | _ => ValueError end)) /\
      (datetime_range i -> exists s f, timestamp_3339Z now mktime t want = Ok s /\ valid f /\ instant f = i /\
         shows_short (u "-") (u "T") (u ":") (if us_3339Z t want then Some (u ".") else None) (u "Z") f s)
  end.
Proof.
  assert (G : forall i us e,
     let res := rbind (rmap (fun w => (w, us)) (in_year e i)) (fun '(w, want) =>
       let want := match want with None => true | Some b => b end in let s := strftime_date (u "-") w ++ u "T" ++ strftime_time w in Ok (if want then s ++ u "." ++ strftime_us w ++ u "Z" else s ++ u "Z")) in
     (~ datetime_range i -> res = Err e) /\
     (datetime_range i -> exists s f, res = Ok s /\ valid f /\ instant f = i /\ shows_short (u "-") (u "T") (u ":") (if match us with None => true | Some b => b end then Some (u ".") else None) (u "Z") f s)).
  { intros i us e. cbv zeta. unfold in_year. destruct (in_range i) eqn:R; cbn [rmap rbind].
    - split; [intros N; destruct N; apply in_range_iff, R|]. intros _. eexists. exists (fields_of i). split; [reflexivity|]. destruct (fields_spec i) as (V & I & _). split; [exact V|]. split; [exact I|].
      set (b := match us with Some b => b | None => true end). pose proof (show_short (u "-") (u "T") b (u "Z") i R) as S. destruct b; rewrite <- !app_assoc in *; exact S.
    - split; [intros _; reflexivity|]. intros D. apply in_range_iff in D. congruence. }
  unfold timestamp_3339Z. destruct t as [|s|us|[|] s|wall [off|]|]; cbn [from_struct arg_instant]; try reflexivity;
    match goal with |- context [rmap (fun w => (w, ?us)) (in_year ?e ?i)] => destruct (G i us e) as (A & B) end;
    (split; [exact A|]); intros D; destruct (B D) as (r & f & E & V & I & H); exists r, f;
    repeat (split; [assumption|]); destruct want as [[|]|]; exact H.
Qed.
Print Assumptions C87_timestamp_3339Z_exact.
Example C87_exact_nonvacuous : timestamp_3339Z 0 (fun w => w) (TFloat (-62135596800000000)) None = Ok (u "1-01-01T00:00:00Z") /\ datetime_range (-62135596800000000) /\
  timestamp_3339Z 0 (fun w => w) (TFloat (-62135596800000001)) None = Err ValueError /\ ~ datetime_range (-62135596800000001) /\
  timestamp_3339Z 0 (fun w => w) (TDatetime 253402300799999999 (Some (-1))) None = Err OverflowError.
Proof. repeat split; try (vm_compute; congruence). intros [H _]. vm_compute in H. congruence. Qed.

(** C89 likewise; timestamp_human does show the microseconds of floats.  A datetime without time
    zone is never out of range. *)
Theorem C89_timestamp_human_exact (now : Z) (local_offset mktime : Z -> Z) (t : targ) (want : option bool) :
  match human_wall now local_offset mktime t with
  | None => timestamp_human now local_offset mktime t want = Err TypeError
  | Some w =>
      (~ datetime_range w -> (forall wall, t <> TDatetime wall None) ->
         timestamp_human now local_offset mktime t want = Err (match t with TNone | TDatetime _ _ => OverflowError | _ => ValueError end)) /\
      (datetime_range w -> exists s f, timestamp_human now local_offset mktime t want = Ok s /\ valid f /\ instant f = w /\
         shows_short (u "/") (u " ") (u ":") (if arg_us t want then Some (u ".") else None) [] f s)
  end.
Proof.
  assert (G : forall w us, datetime_range w ->
     exists s f, (let want := match us with None => true | Some b => b end in let s := strftime_date (u "/") w ++ u " " ++ strftime_time w in if want then s ++ u "." ++ strftime_us w else s) = s /\
       valid f /\ instant f = w /\ shows_short (u "/") (u " ") (u ":") (if match us with None => true | Some b => b end then Some (u ".") else None) [] f s).
  { intros w us D. apply in_range_iff in D. eexists. exists (fields_of w). split; [reflexivity|]. destruct (fields_spec w) as (V & I & _). split; [exact V|]. split; [exact I|].
    cbv zeta. set (b := match us with Some b => b | None => true end). pose proof (show_short (u "/") (u " ") b [] w D) as S. destruct b; rewrite ?app_nil_r in S; rewrite <- ?app_assoc in *; exact S. }
  assert (F : forall w us e,
     let res := rbind (rmap (fun w => (w, us)) (in_year e w)) (fun '(w, want) =>
       let want := match want with None => true | Some b => b end in let s := strftime_date (u "/") w ++ u " " ++ strftime_time w in Ok (if want then s ++ u "." ++ strftime_us w else s)) in
     (~ datetime_range w -> res = Err e) /\
     (datetime_range w -> exists s f, res = Ok s /\ valid f /\ instant f = w /\ shows_short (u "/") (u " ") (u ":") (if match us with None => true | Some b => b end then Some (u ".") else None) [] f s)).
  { intros w us e. cbv zeta. unfold in_year. destruct (in_range w) eqn:R; cbn [rmap rbind].
    - split; [intros N; destruct N; apply in_range_iff, R|]. intros D. destruct (G w us D) as (s & f & <- & H). eexists. exists f. split; [reflexivity|exact H].
    - split; [intros _; reflexivity|]. intros D. apply in_range_iff in D. congruence. }
  unfold timestamp_human, human_wall. destruct t as [|s|us|[|] s|wall [off|]|]; cbn [from_struct arg_instant option_map]; try reflexivity.
  1-6: match goal with |- context [rmap (fun w => (w, ?us)) (in_year ?e ?i)] => destruct (F i us e) as (A & B) end;
    (split; [intros D _; exact (A D)|]); intros D; destruct (B D) as (r & f & E & V & I & H); exists r, f;
    repeat (split; [assumption|]); destruct want as [[|]|]; exact H.
  split; [intros _ N; destruct (N wall eq_refl)|]. intros D. cbn [rbind]. destruct (G wall want D) as (r & f & <- & V & I & H). eexists. exists f. split; [reflexivity|].
  repeat (split; [assumption|]). destruct want as [[|]|]; exact H.
Qed.
Print Assumptions C89_timestamp_human_exact.
Example C89_exact_nonvacuous : timestamp_human 0 (fun _ => 3600000000) (fun w => w) (TInt (-62135596800)) (Some true) = Ok (u "1/01/01 01:00:00.000000") /\
  timestamp_human 0 (fun _ => -1) (fun w => w) (TInt (-62135596800)) None = Err ValueError.
Proof. split; vm_compute; reflexivity. Qed.

(** ** C88 for all years *)
Lemma shows_short_order dash mid colon us z f g s s' : shows_short dash mid colon us z f s -> shows_short dash mid colon us z g s' -> length s = length s' ->
  str_ltb s s' = lexz (match us with Some _ => field_list f | None => removelast (field_list f) end) (match us with Some _ => field_list g | None => removelast (field_list g) end).
Proof.
  intros (y & mo & d & h & mi & sec & frac & (w & Y & _) & MO & D & H & MI & S & F & ->) (y' & mo' & d' & h' & mi' & sec' & frac' & (w' & Y' & _) & MO' & D' & H' & MI' & S' & F' & ->) L.
  assert (W : w = w').
  { assert (FL : length frac = length frac').
    { destruct us as [p|]; [|congruence]. destruct F as (n & (F & _) & ->), F' as (n' & (F' & _) & ->). rewrite !app_length. lia. }
    rewrite !app_length in L. destruct Y as (Y & _), Y' as (Y' & _), MO as (MO & _), MO' as (MO' & _), D as (D & _), D' as (D' & _), H as (H & _), H' as (H' & _), MI as (MI & _), MI' as (MI' & _), S as (S & _), S' as (S' & _). lia. }
  subst w'.
  rewrite (num_step _ _ _ y y' _ _ Y Y'), sep_step, (num_step 2 _ _ mo mo' _ _ MO MO'), sep_step, (num_step 2 _ _ d d' _ _ D D'), sep_step, (num_step 2 _ _ h h' _ _ H H'), sep_step, (num_step 2 _ _ mi mi' _ _ MI MI'), sep_step, (num_step 2 _ _ sec sec' _ _ S S').
  destruct us as [p|].
  - destruct F as (n & F & ->), F' as (n' & F' & ->). rewrite <- !app_assoc, sep_step, (num_step 6 _ _ n n' _ _ F F'), str_ltb_refl. reflexivity.
  - subst frac frac'. cbn [app]. rewrite str_ltb_refl. reflexivity.
Qed.
Lemma shows_short_instant dash mid colon us z f g s s' : valid f -> valid g -> shows_short dash mid colon us z f s -> shows_short dash mid colon us z g s' -> length s = length s' ->
  str_ltb s s' = match us with Some _ => instant f <? instant g | None => instant f / 1000000 <? instant g / 1000000 end.
Proof.
  intros V V' S S' L. rewrite (shows_short_order _ _ _ _ _ _ _ _ _ S S' L). destruct us; [apply instant_lt; assumption|]. rewrite lexz_us.
  assert (VV : forall f, valid f -> valid (Fields (f_year f) (f_month f) (f_day f) (f_hour f) (f_minute f) (f_second f) 0)) by (intros x (A & B & C & D & E & _); unfold valid; cbn [f_year f_month f_day f_hour f_minute f_second f_us]; repeat split; lia).
  rewrite instant_lt by (apply VV; assumption). destruct (instant_us f V) as (E1 & M1), (instant_us g V') as (E2 & M2). rewrite E1, E2.
  generalize dependent (instant (Fields (f_year f) (f_month f) (f_day f) (f_hour f) (f_minute f) (f_second f) 0)). intros a _ M1. generalize dependent (instant (Fields (f_year g) (f_month g) (f_day g) (f_hour g) (f_minute g) (f_second g) 0)). intros b _ M2.
  pose proof (Z.div_mod a 1000000 ltac:(lia)). pose proof (Z.div_mod b 1000000 ltac:(lia)). destruct (Z.ltb_spec a b); symmetry; [apply Z.ltb_lt|apply Z.ltb_ge]; lia.
Qed.

(** Two results of timestamp_3339Z of the same length, both with or both without microseconds, sort
    by time, whatever the years: so only a change in the number of digits of the year (at 10, 100
    and 1000) breaks the order. *)
Theorem C88_timestamps_sort_same_length now mktime t t' want want' i j s s' :
  arg_instant now mktime t = Some i -> arg_instant now mktime t' = Some j ->
  timestamp_3339Z now mktime t want = Ok s -> timestamp_3339Z now mktime t' want' = Ok s' ->
  us_3339Z t want = us_3339Z t' want' -> length s = length s' ->
  str_ltb s s' = (if us_3339Z t want then i <? j else i / 1000000 <? j / 1000000).
Proof.
  intros A A' E E' U L. pose proof (C87_timestamp_3339Z_exact now mktime t want) as P. pose proof (C87_timestamp_3339Z_exact now mktime t' want') as P'. rewrite A in P. rewrite A' in P'.
  destruct P as (N & P), P' as (N' & P').
  assert (D : datetime_range i). { destruct (in_range i) eqn:R; [now apply in_range_iff|]. rewrite N in E; [discriminate|]. intros D. apply in_range_iff in D. congruence. }
  assert (D' : datetime_range j). { destruct (in_range j) eqn:R; [now apply in_range_iff|]. rewrite N' in E'; [discriminate|]. intros D'. apply in_range_iff in D'. congruence. }
  destruct (P D) as (s0 & f & E0 & V & I & S). destruct (P' D') as (s0' & g & E0' & V' & I' & S'). rewrite E in E0. rewrite E' in E0'. injection E0 as <-. injection E0' as <-.
  rewrite <- U in S'. rewrite (shows_short_instant _ _ _ _ _ _ _ _ _ V V' S S' L), I, I'. destruct (us_3339Z t want); reflexivity.
Qed.
Print Assumptions C88_timestamps_sort_same_length.
Example C88_same_length_nonvacuous : exists s s', timestamp_3339Z 0 (fun w => w) (TInt (-62135596800)) None = Ok s /\ timestamp_3339Z 0 (fun w => w) (TInt (-62104060800)) None = Ok s' /\
  length s = length s' /\ str_ltb s s' = true.
Proof. do 2 eexists. repeat split; vm_compute; reflexivity. Qed.
