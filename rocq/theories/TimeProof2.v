(** Proofs about timestamps: the calendar, the order of strings of digits, and the fields of a wall time. *)
From Verif Require Import PyStrProof TimeModel TimeSpec TimeProof.
Open Scope Z_scope.

(** ** The calendar is in order *)
Definition before_month (y m : Z) : Z := fold_right Z.add 0 (map (fun i => days_in_month y (Z.of_nat i)) (seq 1 (Z.to_nat m - 1))).
Lemma ordinal_eq y m d : ordinal y m d = before_year y + before_month y m + d.
Proof. unfold ordinal, before_year, before_month. lia. Qed.
Lemma month_cases m : 1 <= m <= 12 -> m = 1 \/ m = 2 \/ m = 3 \/ m = 4 \/ m = 5 \/ m = 6 \/ m = 7 \/ m = 8 \/ m = 9 \/ m = 10 \/ m = 11 \/ m = 12.
Proof. lia. Qed.
Lemma before_month_next y m : 1 <= m < 12 -> before_month y (m + 1) = before_month y m + days_in_month y m.
Proof.
  intros M. unfold before_month. replace (Z.to_nat (m + 1) - 1)%nat with (S (Z.to_nat m - 1)) by lia. rewrite seq_S, map_app, fold_right_app. cbn [map fold_right]. replace (Z.of_nat (1 + (Z.to_nat m - 1))) with m by lia.
  generalize (map (fun i => days_in_month y (Z.of_nat i)) (seq 1 (Z.to_nat m - 1))). intros l. assert (G : forall a, fold_right Z.add a l = fold_right Z.add 0 l + a) by (intros a; induction l as [|x l IH]; cbn; [lia|rewrite IH; lia]). rewrite G. lia.
Qed.
Lemma dim_pos y m : 28 <= days_in_month y m.
Proof. unfold days_in_month. destruct (m =? 2); [destruct (leap y); lia|]. destruct (existsb _ _); lia. Qed.
Lemma before_month_mono y m m' : 1 <= m -> m < m' -> m' <= 12 -> before_month y m + days_in_month y m <= before_month y m'.
Proof.
  intros A B C. replace m' with (m + 1 + Z.of_nat (Z.to_nat (m' - m - 1))) in * by lia. revert C. clear B. generalize (Z.to_nat (m' - m - 1)). intros k C. induction k as [|k IH].
  - rewrite Z.add_0_r. rewrite before_month_next by lia. lia.
  - replace (m + 1 + Z.of_nat (S k)) with ((m + 1 + Z.of_nat k) + 1) by lia. rewrite before_month_next by lia. pose proof (dim_pos y (m + 1 + Z.of_nat k)). lia.
Qed.
Lemma year_days y : before_month y 12 + days_in_month y 12 = (if leap y then 366 else 365).
Proof. unfold before_month. cbn [seq map fold_right Z.to_nat Pos.to_nat Pos.iter_op Init.Nat.add Nat.sub]. unfold days_in_month. cbn. destruct (leap y); reflexivity. Qed.
Lemma before_year_next y : before_year (y + 1) = before_year y + (if leap y then 366 else 365).
Proof.
  unfold before_year, leap. replace (y + 1 - 1) with y by lia.
  assert (D : forall a, 0 < a -> y / a - (y - 1) / a = if y mod a =? 0 then 1 else 0).
  { intros a A. pose proof (Z.div_mod y a ltac:(lia)) as E. pose proof (Z.mod_pos_bound y a A) as R. destruct (Z.eqb_spec (y mod a) 0) as [Q|Q].
    - replace ((y - 1) / a) with (y / a - 1); [lia|]. apply (Z.div_unique (y - 1) a (y / a - 1) (a - 1)); lia.
    - replace ((y - 1) / a) with (y / a); [lia|]. apply (Z.div_unique (y - 1) a (y / a) (y mod a - 1)); lia. }
  pose proof (D 4 ltac:(lia)). pose proof (D 100 ltac:(lia)). pose proof (D 400 ltac:(lia)).
  assert (I1 : y mod 100 = 0 -> y mod 4 = 0) by (intros Q; apply Z.mod_divide in Q; [|lia]; apply Z.mod_divide; [lia|]; destruct Q as (k & ->); exists (25 * k); lia).
  assert (I2 : y mod 400 = 0 -> y mod 100 = 0) by (intros Q; apply Z.mod_divide in Q; [|lia]; apply Z.mod_divide; [lia|]; destruct Q as (k & ->); exists (4 * k); lia).
  destruct (Z.eqb_spec (y mod 4) 0), (Z.eqb_spec (y mod 100) 0), (Z.eqb_spec (y mod 400) 0); cbn [andb orb negb]; try lia.
Qed.
Lemma before_year_mono y y' : y < y' -> before_year y + (if leap y then 366 else 365) <= before_year y'.
Proof.
  intros L. replace y' with (y + 1 + Z.of_nat (Z.to_nat (y' - y - 1))) by lia. generalize (Z.to_nat (y' - y - 1)). intros k. induction k as [|k IH].
  - rewrite Z.add_0_r, before_year_next. lia.
  - replace (y + 1 + Z.of_nat (S k)) with ((y + 1 + Z.of_nat k) + 1) by lia. rewrite before_year_next. destruct (leap (y + 1 + Z.of_nat k)); lia.
Qed.
Lemma before_month_end y m : 1 <= m <= 12 -> before_month y m + days_in_month y m <= (if leap y then 366 else 365) /\ 0 <= before_month y m.
Proof.
  intros M. split.
  - rewrite <- year_days. destruct (Z.eq_dec m 12) as [-> |]; [lia|]. pose proof (before_month_mono y m 12). pose proof (dim_pos y 12). lia.
  - destruct (Z.eq_dec m 1) as [-> |]; [reflexivity|]. pose proof (before_month_mono y 1 m). pose proof (dim_pos y 1). change (before_month y 1) with 0 in *. lia.
Qed.
(** numbers in order: the first difference decides *)
Fixpoint lexz (a b : list Z) : bool := match a, b with x :: a, y :: b => (x <? y) || ((x =? y) && lexz a b) | _, _ => false end.
Definition field_list (f : fields) : list Z := [f_year f; f_month f; f_day f; f_hour f; f_minute f; f_second f; f_us f].
Lemma lexz_cons x y a b : lexz (x :: a) (y :: b) = true <-> x < y \/ (x = y /\ lexz a b = true).
Proof. cbn [lexz]. rewrite orb_true_iff, andb_true_iff, Z.ltb_lt, Z.eqb_eq. reflexivity. Qed.
Lemma ordinal_mono y m d y' m' d' : 1 <= m <= 12 -> 1 <= m' <= 12 -> 1 <= d <= days_in_month y m -> 1 <= d' <= days_in_month y' m' -> lexz [y; m; d] [y'; m'; d'] = true -> ordinal y m d < ordinal y' m' d'.
Proof.
  intros M M' D D' L. rewrite !ordinal_eq. rewrite !lexz_cons in L. destruct (before_month_end y m M). destruct (before_month_end y' m' M'). destruct L as [L|(-> & [L|(-> & [L|(_ & L)])])].
  - pose proof (before_year_mono y y' L). lia.
  - pose proof (before_month_mono y' m m'). lia.
  - lia.
  - discriminate.
Qed.
Lemma instant_mono f g : valid f -> valid g -> lexz (field_list f) (field_list g) = true -> instant f < instant g.
Proof.
  intros (M & D & H & MI & S & U) (M' & D' & H' & MI' & S' & U') L. unfold field_list in L. unfold instant.
  assert (C : lexz [f_year f; f_month f; f_day f] [f_year g; f_month g; f_day g] = true \/ (f_year f = f_year g /\ f_month f = f_month g /\ f_day f = f_day g /\
     lexz [f_hour f; f_minute f; f_second f; f_us f] [f_hour g; f_minute g; f_second g; f_us g] = true)).
  { rewrite lexz_cons in L. destruct L as [L|(E & L)]; [left; apply lexz_cons; tauto|]. rewrite lexz_cons in L. destruct L as [L|(E2 & L)]; [left; rewrite !lexz_cons; tauto|].
    rewrite lexz_cons in L. destruct L as [L|(E3 & L)]; [left; rewrite !lexz_cons; tauto|right; tauto]. }
  destruct C as [C|(E1 & E2 & E3 & C)].
  - pose proof (ordinal_mono _ _ _ _ _ _ M M' D D' C). lia.
  - rewrite E1, E2, E3. rewrite !lexz_cons in C. destruct C as [C|(E & [C|(E' & [C|(E'' & [C|(_ & C)])])])]; try lia. discriminate.
Qed.
Lemma lexz_trich a : forall b, length a = length b -> lexz a b = true \/ a = b \/ lexz b a = true.
Proof.
  induction a as [|x a IH]; intros [|y b] L; try discriminate; [auto|]. injection L as L. rewrite !lexz_cons. destruct (Z.lt_trichotomy x y) as [T|[-> |T]]; auto. destruct (IH b L) as [T|[-> |T]]; auto.
Qed.
Lemma instant_lt f g : valid f -> valid g -> lexz (field_list f) (field_list g) = (instant f <? instant g).
Proof.
  intros V V'. destruct (lexz_trich (field_list f) (field_list g) eq_refl) as [T|[T|T]].
  - rewrite T. symmetry. apply Z.ltb_lt, instant_mono; assumption.
  - assert (EQ : f = g) by (destruct f, g; unfold field_list in T; cbn in T; injection T; intros; subst; reflexivity). subst g. rewrite Z.ltb_irrefl. destruct (lexz (field_list f) (field_list f)) eqn:E; [|reflexivity].
    pose proof (instant_mono f f V V E). lia.
  - pose proof (instant_mono g f V' V T). destruct (Z.ltb_spec (instant f) (instant g)); [lia|]. destruct (lexz (field_list f) (field_list g)) eqn:E; [|reflexivity]. pose proof (instant_mono f g V V' E). lia.
Qed.

(** ** Strings of digits *)
Lemma ltb_app a : forall b r r', length a = length b -> str_ltb (a ++ r) (b ++ r') = str_ltb a b || (str_eqb a b && str_ltb r r').
Proof.
  induction a as [|x a IH]; intros [|y b] r r' L; try discriminate; [reflexivity|]. injection L as L. cbn [app str_ltb str_eqb]. rewrite (IH b r r' L). destruct (x <? y)%N, (x =? y)%N; reflexivity.
Qed.
Lemma fold_int s : forall z, fold_left (fun acc c => acc * 10 + Z.of_N (c - 48)) s z = z * 10 ^ Z.of_nat (length s) + int_of s.
Proof.
  unfold int_of. induction s as [|c s IH]; intros z; cbn [fold_left length]; [rewrite Z.pow_0_r; lia|]. rewrite IH, (IH (0 * 10 + Z.of_N (c - 48))). rewrite Nat2Z.inj_succ, Z.pow_succ_r by lia. ring.
Qed.
Lemma int_of_cons c s : int_of (c :: s) = Z.of_N (c - 48) * 10 ^ Z.of_nat (length s) + int_of s.
Proof.
  change (int_of (c :: s)) with (fold_left (fun acc c => acc * 10 + Z.of_N (c - 48)) s (0 * 10 + Z.of_N (c - 48))). rewrite fold_int.
  rewrite Z.mul_0_l, Z.add_0_l. reflexivity.
Qed.
Lemma int_of_bound s : forallb is_digit s = true -> 0 <= int_of s < 10 ^ Z.of_nat (length s).
Proof.
  induction s as [|c s IH]; intros H; [cbn; lia|]. cbn [forallb] in H. apply andb_prop in H. destruct H as (C & H). specialize (IH H). rewrite int_of_cons. cbn [length]. rewrite Nat2Z.inj_succ, Z.pow_succ_r by lia.
  unfold is_digit, between in C. apply andb_prop in C. rewrite !N.leb_le in C. assert (0 <= Z.of_N (c - 48) <= 9) by lia. nia.
Qed.
Lemma num_ltb a : forall b, length a = length b -> forallb is_digit a = true -> forallb is_digit b = true ->
  str_ltb a b = (int_of a <? int_of b) /\ str_eqb a b = (int_of a =? int_of b).
Proof.
  induction a as [|x a IH]; intros [|y b] L A B; try discriminate; [split; reflexivity|]. injection L as L. cbn [forallb] in A, B. apply andb_prop in A, B. destruct A as (X & A), B as (Y & B).
  destruct (IH b L A B) as (I1 & I2). cbn [str_ltb str_eqb]. rewrite I1, I2, !int_of_cons, L. pose proof (int_of_bound a A) as BA. pose proof (int_of_bound b B) as BB. rewrite L in BA.
  unfold is_digit, between in X, Y. apply andb_prop in X, Y. rewrite !N.leb_le in X, Y. set (p := 10 ^ Z.of_nat (length b)) in *.
  destruct (N.ltb_spec x y), (N.eqb_spec x y); try lia; subst; cbn [orb andb].
  - split; symmetry; [apply Z.ltb_lt|apply Z.eqb_neq]; assert (Z.of_N (x - 48) + 1 <= Z.of_N (y - 48)) by lia; nia.
  - split.
    + destruct (Z.ltb_spec (int_of a) (int_of b)); symmetry; [apply Z.ltb_lt|apply Z.ltb_ge]; lia.
    + destruct (Z.eqb_spec (int_of a) (int_of b)); symmetry; [apply Z.eqb_eq|apply Z.eqb_neq]; lia.
  - assert (Z.of_N (y - 48) + 1 <= Z.of_N (x - 48)) by lia. split; symmetry; [apply Z.ltb_ge|apply Z.eqb_neq]; nia.
Qed.
Lemma dec_aux_length f : forall n k, (n < 10 ^ N.of_nat k)%N -> (0 < k)%nat -> (length (dec_aux f n []) <= k)%nat.
Proof.
  induction f as [|f IH]; intros n k H K; [cbn; lia|]. cbn [dec_aux]. destruct (n <? 10)%N eqn:E; [cbn; lia|]. apply N.ltb_ge in E. rewrite dec_aux_acc, app_length. cbn [length].
  destruct k as [|[|k]]; [lia| |].
  - cbn in H. lia.
  - assert (length (dec_aux f (n / 10) []) <= S k)%nat; [|lia]. apply IH; [|lia]. apply N.div_lt_upper_bound; [lia|]. rewrite (Nnat.Nat2N.inj_succ (S k)), N.pow_succ_r' in H. lia.
Qed.
Lemma int_of_zeros k s : int_of (repeat (c1 "0") k ++ s) = int_of s.
Proof. induction k as [|k IH]; [reflexivity|]. cbn [repeat app]. rewrite int_of_cons, IH. reflexivity. Qed.
Lemma digits_number w n : (0 < w)%nat -> 0 <= n < 10 ^ Z.of_nat w -> number w n (digits w n).
Proof.
  intros W R. destruct (dec_spec (Z.to_N n)) as (A & B & C). assert (L : (length (dec (Z.to_N n)) <= w)%nat).
  { apply dec_aux_length; [|exact W]. apply N2Z.inj_lt. rewrite N2Z.inj_pow, Z2N.id, nat_N_Z by lia. apply R. }
  unfold number, digits, zfill. split; [rewrite app_length, repeat_length; lia|]. split.
  - rewrite forallb_app, B, andb_true_r. apply forallb_forall. intros x I. apply repeat_spec in I. subst. reflexivity.
  - rewrite int_of_zeros, A. lia.
Qed.
Lemma dec_number n : 1000 <= n <= 9999 -> number 4 n (dec (Z.to_N n)).
Proof.
  intros R. destruct (dec_spec (Z.to_N n)) as (A & B & C). assert (L : (length (dec (Z.to_N n)) <= 4)%nat) by (apply dec_aux_length; [|lia]; change (10 ^ N.of_nat 4)%N with 10000%N; lia).
  split; [|split; [exact B|rewrite A; lia]]. pose proof (int_of_bound _ B) as IB. rewrite A, Z2N.id in IB by lia. destruct (length (dec (Z.to_N n))) as [|[|[|[|[|k]]]]]; try lia; cbn in IB; lia.
Qed.

(** ** The fields of a wall time *)
Definition fields_of (w : Z) : fields :=
  let '(y, m, d) := ymd w in let s := (w mod us_per_day) / us_per_s in Fields y m d (s / 3600) (s / 60 mod 60) (s mod 60) (w mod us_per_s).
Lemma day_split w : let s := (w mod us_per_day) / us_per_s in 0 <= s < 86400 /\ w = (w / us_per_day) * us_per_day + s * us_per_s + w mod us_per_s.
Proof.
  cbv zeta. unfold us_per_day, us_per_s. change (86400 * 1000000) with 86400000000. pose proof (Z.div_mod w 86400000000 ltac:(lia)) as E1. pose proof (Z.mod_pos_bound w 86400000000 ltac:(lia)) as B1. set (r := w mod 86400000000) in *. set (q := w / 86400000000) in *.
  pose proof (Z.div_mod r 1000000 ltac:(lia)) as E2. pose proof (Z.mod_pos_bound r 1000000 ltac:(lia)) as B2.
  assert (E3 : w mod 1000000 = r mod 1000000). { rewrite E1. replace (86400000000 * q + r) with (r + (86400 * q) * 1000000) by lia. apply Z.mod_add. lia. }
  rewrite E3. lia.
Qed.
Lemma fields_spec w : valid (fields_of w) /\ instant (fields_of w) = w /\ f_year (fields_of w) = year_of w.
Proof.
  pose proof (day_split w) as (S & E). unfold fields_of, year_of, ymd. destruct (ord2ymd (w / us_per_day + epoch_day)) as [[y m] d] eqn:O. destruct (ord2ymd_spec _ _ _ _ O) as (M & D & ORD). cbv zeta. set (s := (w mod us_per_day) / us_per_s) in *.
  pose proof (Z.div_mod s 3600 ltac:(lia)) as H1. pose proof (Z.mod_pos_bound s 3600 ltac:(lia)) as H2. pose proof (Z.div_mod s 60 ltac:(lia)) as H3. pose proof (Z.mod_pos_bound s 60 ltac:(lia)) as H4.
  pose proof (Z.mod_pos_bound (s / 60) 60 ltac:(lia)) as H5. pose proof (Z.div_mod (s / 60) 60 ltac:(lia)) as H6. assert (H7 : s / 60 / 60 = s / 3600) by (rewrite Z.div_div by lia; reflexivity).
  pose proof (Z.mod_pos_bound w us_per_s ltac:(reflexivity)) as H8.
  split; [|split; [|reflexivity]].
  - unfold valid. cbn [f_year f_month f_day f_hour f_minute f_second f_us]. unfold us_per_s in *. repeat split; lia.
  - unfold instant. cbn [f_year f_month f_day f_hour f_minute f_second f_us]. rewrite ORD. change (ordinal 1970 1 1) with 719163. unfold epoch_day in *. unfold us_per_day, us_per_s in *. lia.
Qed.

(** ** The order of timestamps *)
Lemma str_ltb_refl a : str_ltb a a = false.
Proof. induction a as [|x a IH]; [reflexivity|]. cbn [str_ltb]. rewrite N.ltb_irrefl, IH, andb_false_r. reflexivity. Qed.
Lemma num_step w n n' a b r r' : number w n a -> number w n' b -> str_ltb (a ++ r) (b ++ r') = (n <? n') || ((n =? n') && str_ltb r r').
Proof.
  intros (L & D & E) (L' & D' & E'). rewrite ltb_app by congruence. destruct (num_ltb a b) as (-> & ->); [congruence|assumption|assumption|]. rewrite E, E'. reflexivity.
Qed.
Lemma sep_step p r r' : str_ltb (p ++ r) (p ++ r') = str_ltb r r'.
Proof. rewrite ltb_app, str_ltb_refl, str_eqb_refl by reflexivity. reflexivity. Qed.
Lemma shows_order dash mid colon us z f g s s' : shows dash mid colon us z f s -> shows dash mid colon us z g s' ->
  str_ltb s s' = lexz (match us with Some _ => field_list f | None => removelast (field_list f) end) (match us with Some _ => field_list g | None => removelast (field_list g) end).
Proof.
  intros (y & mo & d & h & mi & sec & frac & Y & MO & D & H & MI & S & F & ->) (y' & mo' & d' & h' & mi' & sec' & frac' & Y' & MO' & D' & H' & MI' & S' & F' & ->).
  rewrite (num_step 4 _ _ y y' _ _ Y Y'), sep_step, (num_step 2 _ _ mo mo' _ _ MO MO'), sep_step, (num_step 2 _ _ d d' _ _ D D'), sep_step, (num_step 2 _ _ h h' _ _ H H'), sep_step, (num_step 2 _ _ mi mi' _ _ MI MI'), sep_step, (num_step 2 _ _ sec sec' _ _ S S').
  destruct us as [p|].
  - destruct F as (n & F & ->), F' as (n' & F' & ->). rewrite <- !app_assoc, sep_step, (num_step 6 _ _ n n' _ _ F F'), str_ltb_refl. reflexivity.
  - subst frac frac'. cbn [app]. rewrite str_ltb_refl. reflexivity.
Qed.
Lemma instant_us f : valid f -> instant f / 1000000 = instant (Fields (f_year f) (f_month f) (f_day f) (f_hour f) (f_minute f) (f_second f) 0) / 1000000 /\
  instant (Fields (f_year f) (f_month f) (f_day f) (f_hour f) (f_minute f) (f_second f) 0) mod 1000000 = 0.
Proof.
  intros (_ & _ & _ & _ & _ & U). unfold instant. cbn [f_year f_month f_day f_hour f_minute f_second f_us].
  set (a := (((ordinal (f_year f) (f_month f) (f_day f) - ordinal 1970 1 1) * 24 + f_hour f) * 60 + f_minute f)).
  replace (a * 60000000 + f_second f * 1000000 + f_us f) with (f_us f + (a * 60 + f_second f) * 1000000) by lia. replace (a * 60000000 + f_second f * 1000000 + 0) with (0 + (a * 60 + f_second f) * 1000000) by lia.
  rewrite !Z.div_add, Z.mod_add by lia. rewrite (Z.div_small (f_us f)) by lia. split; reflexivity.
Qed.
Lemma lexz_us f g : lexz (removelast (field_list f)) (removelast (field_list g)) =
  lexz (field_list (Fields (f_year f) (f_month f) (f_day f) (f_hour f) (f_minute f) (f_second f) 0)) (field_list (Fields (f_year g) (f_month g) (f_day g) (f_hour g) (f_minute g) (f_second g) 0)).
Proof. reflexivity. Qed.
Lemma shows_instant dash mid colon us z f g s s' : valid f -> valid g -> shows dash mid colon us z f s -> shows dash mid colon us z g s' ->
  str_ltb s s' = match us with Some _ => instant f <? instant g | None => instant f / 1000000 <? instant g / 1000000 end.
Proof.
  intros V V' S S'. rewrite (shows_order _ _ _ _ _ _ _ _ _ S S'). destruct us; [apply instant_lt; assumption|]. rewrite lexz_us.
  assert (VV : forall f, valid f -> valid (Fields (f_year f) (f_month f) (f_day f) (f_hour f) (f_minute f) (f_second f) 0)) by (intros x (A & B & C & D & E & _); unfold valid; cbn [f_year f_month f_day f_hour f_minute f_second f_us]; repeat split; lia).
  rewrite instant_lt by (apply VV; assumption). destruct (instant_us f V) as (E1 & M1), (instant_us g V') as (E2 & M2). rewrite E1, E2.
  generalize dependent (instant (Fields (f_year f) (f_month f) (f_day f) (f_hour f) (f_minute f) (f_second f) 0)). intros a _ M1. generalize dependent (instant (Fields (f_year g) (f_month g) (f_day g) (f_hour g) (f_minute g) (f_second g) 0)). intros b _ M2.
  pose proof (Z.div_mod a 1000000 ltac:(lia)). pose proof (Z.div_mod b 1000000 ltac:(lia)). destruct (Z.ltb_spec a b); symmetry; [apply Z.ltb_lt|apply Z.ltb_ge]; lia.
Qed.
(** years *)
Lemma year_range w : in_range w = true -> instant (Fields 1000 1 1 0 0 0 0) <= w -> 1000 <= f_year (fields_of w) <= 9999.
Proof.
  intros R L. destruct (fields_spec w) as (V & I & _). split.
  - destruct (Z.le_gt_cases 1000 (f_year (fields_of w))) as [H|H]; [exact H|]. assert (Q : instant (fields_of w) < instant (Fields 1000 1 1 0 0 0 0)); [|lia].
    apply instant_mono; [exact V|unfold valid; cbn; lia|]. unfold field_list at 1 2. apply lexz_cons. left. exact H.
  - destruct (Z.le_gt_cases (f_year (fields_of w)) 9999) as [H|H]; [exact H|]. unfold in_range in R. apply andb_prop in R. rewrite !Z.leb_le in R.
    unfold fields_of, ymd in *. destruct (ord2ymd (w / us_per_day + epoch_day)) as [[y m] d] eqn:O. destruct (ord2ymd_spec _ _ _ _ O) as (M & D & ORD). cbn [f_year] in *.
    pose proof (before_year_mono 9999 y ltac:(lia)) as B. rewrite ordinal_eq in ORD. destruct (before_month_end y m M). change (before_year 9999 + (if leap 9999 then 366 else 365)) with 3652059 in B. lia.
Qed.
