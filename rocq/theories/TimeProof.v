(** Proofs about timestamps: the calendar conversion. *)
From Verif Require Import PyStrProof TimeModel TimeSpec.
Open Scope Z_scope.

Fixpoint all_from (k : nat) (z : Z) (f : Z -> bool) : bool := match k with O => true | S k => f z && all_from k (z + 1) f end.
Lemma all_from_spec k : forall z f, all_from k z f = true -> forall n, z <= n < z + Z.of_nat k -> f n = true.
Proof.
  induction k as [|k IH]; intros z f H n R; [lia|]. cbn [all_from] in H. apply andb_prop in H. destruct H as (A & B). destruct (Z.eq_dec n z) as [-> |]; [exact A|]. apply (IH (z + 1)); [exact B|lia].
Qed.
(** the month and day within a year: the days of a year are checked one by one *)
Definition month_step (leap : bool) (n : Z) : Z * Z :=
  let month := (n + 50) / 32 in
  let preceding := days_before_month month + (if (2 <? month) && leap then 1 else 0) in
  if n <? preceding
  then let month := month - 1 in let preceding := preceding - (month_days month + (if (month =? 2) && leap then 1 else 0)) in (month, n - preceding + 1)
  else (month, n - preceding + 1).
Definition dim (leap : bool) (m : Z) : Z := if m =? 2 then (if leap then 29 else 28) else if existsb (Z.eqb m) [4; 6; 9; 11] then 30 else 31.
Definition before (leap : bool) (m : Z) : Z := fold_right Z.add 0 (map (fun i => dim leap (Z.of_nat i)) (seq 1 (Z.to_nat m - 1))).
Definition day_ok (leap : bool) (n : Z) : bool :=
  let '(m, d) := month_step leap n in (1 <=? m) && (m <=? 12) && (1 <=? d) && (d <=? dim leap m) && (before leap m + d =? n + 1).
Lemma month_step_ok leap n m d : 0 <= n < 365 -> month_step leap n = (m, d) -> 1 <= m <= 12 /\ 1 <= d <= dim leap m /\ before leap m + d = n + 1.
Proof.
  intros R E. assert (H : all_from 365 0 (day_ok true) && all_from 365 0 (day_ok false) = true) by (vm_compute; reflexivity). apply andb_prop in H. destruct H as (H1 & H2).
  assert (O : day_ok leap n = true) by (destruct leap; [apply (all_from_spec _ _ _ H1)|apply (all_from_spec _ _ _ H2)]; lia).
  unfold day_ok in O. rewrite E in O. rewrite !andb_true_iff, !Z.leb_le, Z.eqb_eq in O. lia.
Qed.
Lemma ord2ymd_eq n : ord2ymd n =
  let r400 := (n - 1) mod 146097 in let n100 := r400 / 36524 in let r100 := r400 mod 36524 in let n4 := r100 / 1461 in let r4 := r100 mod 1461 in let n1 := r4 / 365 in
  let year := (n - 1) / 146097 * 400 + 1 + n100 * 100 + n4 * 4 + n1 in
  if (n1 =? 4) || (n100 =? 4) then (year - 1, 12, 31) else let '(m, d) := month_step ((n1 =? 3) && (negb (n4 =? 24) || (n100 =? 3))) (r4 mod 365) in (year, m, d).
Proof.
  unfold ord2ymd, month_step. cbv zeta. destruct (_ || _); [reflexivity|]. destruct (_ <? _); reflexivity.
Qed.
Definition before_year (y : Z) : Z := 365 * (y - 1) + (y - 1) / 4 - (y - 1) / 100 + (y - 1) / 400.
Lemma before_year_parts a b c e : 0 <= b < 4 -> 0 <= c < 25 -> 0 <= e < 4 -> before_year (400 * a + 100 * b + 4 * c + e + 1) = 146097 * a + 36524 * b + 1461 * c + 365 * e.
Proof.
  intros B C E. unfold before_year. replace (400 * a + 100 * b + 4 * c + e + 1 - 1) with (400 * a + 100 * b + 4 * c + e) by lia.
  replace ((400 * a + 100 * b + 4 * c + e) / 4) with (100 * a + 25 * b + c) by (apply (Z.div_unique _ 4 _ e); lia).
  replace ((400 * a + 100 * b + 4 * c + e) / 100) with (4 * a + b) by (apply (Z.div_unique _ 100 _ (4 * c + e)); lia).
  replace ((400 * a + 100 * b + 4 * c + e) / 400) with a by (apply (Z.div_unique _ 400 _ (100 * b + 4 * c + e)); lia). lia.
Qed.
Lemma leap_parts a b c e : 0 <= b < 4 -> 0 <= c < 25 -> 0 <= e < 4 -> leap (400 * a + 100 * b + 4 * c + e + 1) = (e =? 3) && (negb (c =? 24) || (b =? 3)).
Proof.
  intros B C E. unfold leap. set (y := 400 * a + 100 * b + 4 * c + e + 1).
  assert (M4 : y mod 4 = if e =? 3 then 0 else e + 1).
  { destruct (Z.eqb_spec e 3) as [-> |]; symmetry; [apply (Z.mod_unique y 4 (100 * a + 25 * b + c + 1))|apply (Z.mod_unique y 4 (100 * a + 25 * b + c))]; unfold y; lia. }
  assert (M100 : y mod 100 = if (e =? 3) && (c =? 24) then 0 else 4 * c + e + 1).
  { destruct (Z.eqb_spec e 3) as [-> |], (Z.eqb_spec c 24) as [-> |]; cbn [andb]; symmetry; [apply (Z.mod_unique y 100 (4 * a + b + 1))| | |]; [unfold y; lia|unfold y; lia| | |]; apply (Z.mod_unique y 100 (4 * a + b)); unfold y; lia. }
  assert (M400 : y mod 400 = if (e =? 3) && (c =? 24) && (b =? 3) then 0 else 100 * b + 4 * c + e + 1).
  { destruct ((e =? 3) && (c =? 24) && (b =? 3)) eqn:Q.
    - rewrite !andb_true_iff, !Z.eqb_eq in Q. destruct Q as ((-> & ->) & ->). symmetry. apply (Z.mod_unique y 400 (a + 1)); unfold y; lia.
    - symmetry. apply (Z.mod_unique y 400 a); [|unfold y; lia]. left. destruct (Z.eqb_spec e 3), (Z.eqb_spec c 24), (Z.eqb_spec b 3); cbn [andb] in Q; try discriminate; lia. }
  rewrite M4, M100, M400. destruct (Z.eqb_spec e 3), (Z.eqb_spec c 24), (Z.eqb_spec b 3); cbn [andb orb negb];
    repeat match goal with |- context[?x =? 0] => destruct (Z.eqb_spec x 0); try lia end; reflexivity.
Qed.
Lemma dim_eq y m : days_in_month y m = dim (leap y) m. Proof. reflexivity. Qed.
Lemma ordinal_before y m d : ordinal y m d = before_year y + before (leap y) m + d.
Proof. unfold ordinal, before_year, before. rewrite (map_ext _ (fun i => dim (leap y) (Z.of_nat i))) by (intros; apply dim_eq). lia. Qed.
Lemma ord2ymd_spec n y m d : ord2ymd n = (y, m, d) -> 1 <= m <= 12 /\ 1 <= d <= days_in_month y m /\ ordinal y m d = n.
Proof.
  rewrite ord2ymd_eq. cbv zeta. set (a := (n - 1) / 146097). set (r := (n - 1) mod 146097).
  assert (R : 0 <= r < 146097) by (apply Z.mod_pos_bound; lia). assert (N : n = 146097 * a + r + 1) by (unfold a, r; pose proof (Z.div_mod (n - 1) 146097); lia). clearbody a r.
  set (b := r / 36524). set (r1 := r mod 36524). assert (R1 : 0 <= r1 < 36524) by (apply Z.mod_pos_bound; lia). assert (N1 : r = 36524 * b + r1) by (apply Z.div_mod; lia). clearbody b r1.
  set (c := r1 / 1461). set (r2 := r1 mod 1461). assert (R2 : 0 <= r2 < 1461) by (apply Z.mod_pos_bound; lia). assert (N2 : r1 = 1461 * c + r2) by (apply Z.div_mod; lia). clearbody c r2.
  set (e := r2 / 365). set (r3 := r2 mod 365). assert (R3 : 0 <= r3 < 365) by (apply Z.mod_pos_bound; lia). assert (N3 : r2 = 365 * e + r3) by (apply Z.div_mod; lia). clearbody e r3.
  assert (C : 0 <= c < 25) by lia. assert (B : 0 <= b <= 4) by lia. assert (E : 0 <= e <= 4) by lia.
  destruct (Z.eqb_spec e 4) as [E4|E4].
  - (* the last day of a leap year that is not the last of 400 years *)
    cbn [orb]. intros Q. assert (Y : y = 400 * a + 100 * b + 4 * c + 3 + 1) by (injection Q; lia). assert (m = 12) by congruence. assert (d = 31) by congruence. subst m d. assert (B' : 0 <= b < 4) by lia.
    assert (r3 = 0) by lia. assert (NL : c <> 24 \/ b = 3) by lia.
    rewrite ordinal_before, dim_eq, Y, (leap_parts a b c 3 B' C), (before_year_parts a b c 3 B' C) by lia. assert (LP : negb (c =? 24) || (b =? 3) = true) by (destruct (Z.eqb_spec c 24), (Z.eqb_spec b 3); try reflexivity; lia). rewrite LP. cbn [Z.eqb Pos.eqb andb].
    change (before true 12) with 335. change (dim true 12) with 31. lia.
  - destruct (Z.eqb_spec b 4) as [B4|B4].
    + (* the last day of 400 years *)
      cbn [orb]. intros Q. assert (r1 = 0) by lia. assert (c = 0) by lia. assert (e = 0) by lia. assert (Y : y = 400 * a + 100 * 3 + 4 * 24 + 3 + 1) by (injection Q; lia). assert (m = 12) by congruence. assert (d = 31) by congruence. subst m d.
      rewrite ordinal_before, dim_eq, Y, (leap_parts a 3 24 3), (before_year_parts a 3 24 3) by lia. cbn [Z.eqb Pos.eqb andb orb negb]. change (before true 12) with 335. change (dim true 12) with 31. lia.
    + cbn [orb]. destruct (month_step ((e =? 3) && (negb (c =? 24) || (b =? 3))) r3) as [m0 d0] eqn:MS. intros Q. assert (Y : y = 400 * a + 100 * b + 4 * c + e + 1) by (injection Q; lia). assert (m = m0) by congruence. assert (d = d0) by congruence. subst m d.
      destruct (month_step_ok _ _ _ _ R3 MS) as (M & D & S). rewrite ordinal_before, dim_eq, Y, (leap_parts a b c e), (before_year_parts a b c e) by lia. split; [exact M|]. split; [exact D|]. lia.
Qed.
