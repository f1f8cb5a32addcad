(** Facts about IEEE 754 doubles, as Coq's standard library defines them (Coq.Floats.SpecFloat: no axioms). *)
From Coq Require Import ZArith Lia Bool.
From Coq Require Export Floats.SpecFloat.
Open Scope Z_scope.

Notation prec := 53. Notation emax := 1024. Notation emin := (-1074).
Notation fexp := (fexp 53 1024).
Lemma fexp_eq e : fexp e = Z.max (e - 53) emin. Proof. reflexivity. Qed.

Lemma digits_spec m : 2 ^ (Zpos (digits2_pos m) - 1) <= Zpos m < 2 ^ Zpos (digits2_pos m).
Proof.
  induction m as [m IH|m IH|]; cbn [digits2_pos].
  - rewrite Pos2Z.inj_succ. replace (Z.succ _ - 1) with (Z.succ (Z.pos (digits2_pos m) - 1)) by lia. rewrite !Z.pow_succ_r by lia. lia.
  - rewrite Pos2Z.inj_succ. replace (Z.succ _ - 1) with (Z.succ (Z.pos (digits2_pos m) - 1)) by lia. rewrite !Z.pow_succ_r by lia. lia.
  - cbn. lia.
Qed.
Lemma digits_unique m d : 2 ^ (d - 1) <= Zpos m < 2 ^ d -> Zpos (digits2_pos m) = d.
Proof.
  intros (A & B). destruct (digits_spec m) as (C & D).
  assert (0 < d). { destruct (Z.ltb_spec 0 d); auto. destruct (Z.eq_dec d 0) as [->|]; [cbn in B; lia|]. rewrite Z.pow_neg_r in B by lia. lia. }
  assert (d - 1 < Z.pos (digits2_pos m)). { apply (Z.pow_lt_mono_r_iff 2); lia. }
  assert (Z.pos (digits2_pos m) - 1 < d). { apply (Z.pow_lt_mono_r_iff 2); lia. }
  lia.
Qed.

Lemma shr_1_m r : 0 <= shr_m r -> shr_m (shr_1 r) = shr_m r / 2.
Proof. destruct r as [m b s]. cbn [shr_m]. intros H. destruct m as [|[p|p|]|p]; [reflexivity| | |reflexivity|lia]; cbn [shr_1 shr_m].
  - apply Z.div_unique with 1; lia.
  - apply Z.div_unique with 0; lia.
Qed.
Lemma iter_shr p : forall r, 0 <= shr_m r -> shr_m (iter_pos shr_1 p r) = shr_m r / 2 ^ Zpos p.
Proof.
  assert (N : forall a b, 0 <= a -> 0 <= a / 2 ^ b) by (intros a b H; destruct (Z.ltb_spec b 0); [rewrite Z.pow_neg_r, Zdiv_0_r by lia; lia|apply Z.div_pos; [lia|apply Z.pow_pos_nonneg; lia]]).
  induction p as [p IH|p IH|]; intros r H; cbn [iter_pos].
  - rewrite IH; rewrite IH; rewrite shr_1_m by auto; auto using Z.div_pos with zarith. rewrite !Z.div_div by (try apply Z.pow_nonzero; try apply Z.pow_pos_nonneg; lia).
    f_equal. replace (Z.pos p~1) with (1 + Z.pos p + Z.pos p) by lia. rewrite !Z.pow_add_r by lia. change (2 ^ 1) with 2. lia.
  - rewrite IH; rewrite IH; auto. rewrite !Z.div_div by (try apply Z.pow_nonzero; try apply Z.pow_pos_nonneg; lia).
    f_equal. replace (Z.pos p~0) with (Z.pos p + Z.pos p) by lia. rewrite !Z.pow_add_r by lia. reflexivity.
  - now apply shr_1_m.
Qed.
Lemma shr_record_m m l : shr_m (shr_record_of_loc m l) = m.
Proof. destruct l as [|[]]; reflexivity. Qed.

(** a positive mantissa stays positive, and ends up canonical *)
Definition canonical (m e : Z) : Prop := exists p, m = Zpos p /\ fexp (Zpos (digits2_pos p) + e) = e.
Lemma shr_fexp_spec p e l : emin <= e -> e <= fexp (Zpos (digits2_pos p) + e) ->
  let '(r, e') := shr_fexp prec emax (Zpos p) e l in canonical (shr_m r) e' /\ e' = fexp (Zpos (digits2_pos p) + e).
Proof.
  intros E F. unfold shr_fexp, shr. cbn [Zdigits2]. rewrite !fexp_eq in *. set (d := Z.pos (digits2_pos p)) in *.
  destruct (Z.max (d + e - 53) emin - e) as [|n|n] eqn:N; [| |lia].
  - rewrite shr_record_m. split; [|lia]. exists p. split; auto. rewrite fexp_eq. fold d. lia.
  - rewrite iter_shr by (rewrite shr_record_m; lia). rewrite shr_record_m. split; [|lia].
    assert (D : d = 53 + Zpos n) by lia. pose proof (digits_spec p) as (A & B). fold d in A, B.
    assert (X : 2 ^ 52 <= Zpos p / 2 ^ Zpos n < 2 ^ 53).
    { split.
      - apply Z.div_le_lower_bound; [apply Z.pow_pos_nonneg; lia|]. rewrite <- Z.pow_add_r by lia. replace (Z.pos n + 52) with (d - 1) by lia. auto.
      - apply Z.div_lt_upper_bound; [apply Z.pow_pos_nonneg; lia|]. rewrite <- Z.pow_add_r by lia. replace (Z.pos n + 53) with d by lia. auto. }
    destruct (Zpos p / 2 ^ Zpos n) as [|q|q] eqn:Q; [cbn in X; lia| |cbn in X; lia]. exists q. split; auto. rewrite (digits_unique q 53 X), fexp_eq. lia.
Qed.
Lemma binary_round_aux_spec s p e : emin <= e -> e <= fexp (Zpos (digits2_pos p) + e) ->
  match binary_round_aux prec emax s (Zpos p) e loc_Exact with
  | S754_finite s' m' e' => s' = s /\ bounded prec emax m' e' = true
  | S754_infinity s' => s' = s
  | _ => False
  end.
Proof.
  intros E F. unfold binary_round_aux. pose proof (shr_fexp_spec p e loc_Exact E F) as H. destruct (shr_fexp _ _ _ _ _) as [r e1]. destruct H as ((q & Q & C) & E1).
  rewrite fexp_eq in *. rewrite Q. set (m := round_nearest_even _ _).
  pose proof (digits_spec q) as (A & B). set (d := Z.pos (digits2_pos q)) in *.
  assert (M : m = Zpos q \/ m = Zpos q + 1) by (unfold m, round_nearest_even; destruct (loc_of_shr_record r) as [|[]]; auto; destruct (Z.even _); auto).
  assert (exists p', m = Zpos p') as (p' & M') by (destruct m as [|x|x]; [lia|eauto|lia]).
  assert (Dm : Zpos (digits2_pos p') = d \/ Zpos (digits2_pos p') = d + 1 /\ Zpos p' = 2 ^ d).
  { destruct (Z.ltb_spec (Zpos p') (2 ^ d)).
    - left. apply digits_unique. lia.
    - right. assert (Zpos p' = 2 ^ d) by lia. split; auto. apply digits_unique. replace (d + 1 - 1) with d by lia. split; [lia|]. rewrite Z.pow_add_r by lia. pose proof (Z.pow_pos_nonneg 2 d). lia. }
  rewrite M'. assert (E2 : emin <= e1) by lia.
  pose proof (shr_fexp_spec p' e1 loc_Exact E2) as H. destruct (shr_fexp prec emax (Z.pos p') e1 loc_Exact) as [r2 e2].
  destruct H as ((q2 & Q2 & C2) & E3); [rewrite fexp_eq; lia|]. rewrite Q2. destruct (Z.leb_spec e2 (emax - prec)); [|auto]. split; auto.
  unfold bounded, canonical_mantissa. apply andb_true_iff. split; [apply Zeq_is_eq_bool; exact C2|]. apply Zle_imp_le_bool. lia.
Qed.
Lemma shift_pos_digits n : forall p, Zpos (digits2_pos (shift_pos n p)) = Zpos (digits2_pos p) + Zpos n.
Proof. intros p. apply digits_unique. rewrite shift_pos_correct. rewrite Z.pow_pos_fold. pose proof (digits_spec p) as (A & B). pose proof (Z.pow_pos_nonneg 2 (Zpos n)).
  replace (Z.pos (digits2_pos p) + Z.pos n - 1) with (Z.pos n + (Z.pos (digits2_pos p) - 1)) by lia. replace (Z.pos (digits2_pos p) + Z.pos n) with (Z.pos n + Z.pos (digits2_pos p)) by lia.
  rewrite !Z.pow_add_r by lia. nia. Qed.
Lemma binary_round_spec s p e : emin <= e ->
  match binary_round prec emax s p e with
  | S754_finite s' m' e' => s' = s /\ bounded prec emax m' e' = true
  | S754_infinity s' => s' = s
  | _ => False
  end.
Proof.
  intros E. unfold binary_round, shl_align. change (SpecFloat.fexp prec emax) with fexp. rewrite fexp_eq. set (d := Z.pos (digits2_pos p)).
  destruct (Z.max (d + e - 53) emin - e) as [|n|n] eqn:N.
  - apply binary_round_aux_spec; auto. rewrite fexp_eq. fold d. lia.
  - apply binary_round_aux_spec; auto. rewrite fexp_eq. fold d. lia.
  - apply binary_round_aux_spec; [lia|]. rewrite shift_pos_digits, fexp_eq. fold d. lia.
Qed.

(** ** values, in units of 2^-1074 *)
Definition big : Z := 2 ^ 2200.
Definition value (x : spec_float) : Z :=
  match x with
  | S754_zero _ | S754_nan => 0
  | S754_infinity s => cond_Zopp s big
  | S754_finite s m e => cond_Zopp s (Zpos m * 2 ^ (e - emin))
  end.
Definition ok (x : spec_float) : Prop := valid_binary prec emax x = true.
Lemma bounded_spec m e : bounded prec emax m e = true -> emin <= e <= 971 /\ Zpos m < 2 ^ 53 /\ (e <> emin -> 2 ^ 52 <= Zpos m).
Proof.
  unfold bounded, canonical_mantissa. intros H. apply andb_true_iff in H as (A & B). apply Zeq_is_eq_bool in A. apply Zle_is_le_bool in B. change (SpecFloat.fexp prec emax) with fexp in A. rewrite fexp_eq in A.
  pose proof (digits_spec m) as (C & D). split; [lia|]. split.
  - eapply Z.lt_le_trans; [exact D|]. apply Z.pow_le_mono_r; lia.
  - intros N. etransitivity; [|exact C]. apply Z.pow_le_mono_r; lia.
Qed.
Lemma value_finite m e : bounded prec emax m e = true -> 0 < Zpos m * 2 ^ (e - emin) < big.
Proof.
  unfold big. intros H. apply bounded_spec in H as (A & B & _). assert (0 < 2 ^ (e - emin)) by (apply Z.pow_pos_nonneg; lia). split; [lia|].
  assert (2 ^ (e - emin) <= 2 ^ 2045) by (apply Z.pow_le_mono_r; lia). replace (2 ^ 2200) with (2 ^ 155 * 2 ^ 2045) by (rewrite <- Z.pow_add_r by lia; reflexivity). assert (2 ^ 53 < 2 ^ 155) by reflexivity. nia.
Qed.
Lemma magnitude_lt m1 e1 m2 e2 : bounded prec emax m1 e1 = true -> bounded prec emax m2 e2 = true -> e1 < e2 -> Zpos m1 * 2 ^ (e1 - emin) < Zpos m2 * 2 ^ (e2 - emin).
Proof.
  intros A B L. apply bounded_spec in A as (A1 & A2 & _). apply bounded_spec in B as (B1 & _ & B2). specialize (B2 ltac:(lia)).
  replace (e2 - emin) with ((e2 - e1 - 1) + 1 + (e1 - emin)) by lia. rewrite !Z.pow_add_r by lia. pose proof (Z.pow_pos_nonneg 2 (e2 - e1 - 1)). pose proof (Z.pow_pos_nonneg 2 (e1 - emin)).
  assert (2 ^ 53 = 2 ^ 52 * 2 ^ 1) by reflexivity. assert (Zpos m1 < Zpos m2 * 2 ^ 1 * 2 ^ (e2 - e1 - 1)) by nia. nia.
Qed.
Lemma magnitude m1 e1 m2 e2 : bounded prec emax m1 e1 = true -> bounded prec emax m2 e2 = true ->
  match Z.compare e1 e2 with Lt => Lt | Gt => Gt | Eq => Pcompare m1 m2 Eq end = Z.compare (Zpos m1 * 2 ^ (e1 - emin)) (Zpos m2 * 2 ^ (e2 - emin)).
Proof.
  intros A B. destruct (Z.compare_spec e1 e2) as [->|L|L].
  - apply bounded_spec in A as (A & _). pose proof (Z.pow_pos_nonneg 2 (e2 - emin)). change (Pos.compare_cont Eq m1 m2) with (Z.compare (Zpos m1) (Zpos m2)).
    destruct (Z.compare_spec (Zpos m1) (Zpos m2)) as [X|X|X]; symmetry; [injection X as ->; apply Z.compare_refl|apply Z.compare_lt_iff; nia|apply Z.compare_gt_iff; nia].
  - symmetry. apply Z.compare_lt_iff. now apply magnitude_lt.
  - symmetry. apply Z.compare_gt_iff. now apply magnitude_lt.
Qed.
Lemma compare_value x y : ok x -> ok y -> x <> S754_nan -> y <> S754_nan -> SFcompare x y = Some (Z.compare (value x) (value y)).
Proof.
  intros A B X Y.
  assert (BIG : 0 < big) by reflexivity.
  destruct x as [s1|s1| |s1 m1 e1], y as [s2|s2| |s2 m2 e2]; try congruence; unfold ok in *; cbn [valid_binary] in *; cbn [SFcompare value]; f_equal.
  all: try (pose proof (value_finite m1 e1 A) as V1; set (v1 := Zpos m1 * 2 ^ (e1 - emin)) in * ).
  all: try (pose proof (value_finite m2 e2 B) as V2).
  all: generalize dependent big; intros g; intros.
  8: { rewrite (magnitude m1 e1 m2 e2 A B). fold v1. set (v2 := Zpos m2 * _) in *.
       destruct s1, s2; cbn [cond_Zopp].
       - replace (match (e1 ?= e2) with Eq => CompOpp (Pos.compare_cont Eq m1 m2) | Lt => Gt | Gt => Lt end) with (CompOpp (match (e1 ?= e2) with Lt => Lt | Gt => Gt | Eq => Pos.compare_cont Eq m1 m2 end)) by (destruct (e1 ?= e2); reflexivity).
         rewrite (magnitude m1 e1 m2 e2 A B). fold v1 v2. rewrite <- (Z.compare_antisym v1 v2). symmetry. apply Z.compare_opp.
       - symmetry; apply Z.compare_lt_iff; lia.
       - symmetry; apply Z.compare_gt_iff; lia.
       - reflexivity. }
  all: try (set (v2 := Zpos m2 * _) in * ).
  all: try destruct s1; try destruct s2; cbn [cond_Zopp]; symmetry; try apply Z.compare_refl; try (apply Z.compare_lt_iff; lia); apply Z.compare_gt_iff; lia.
Qed.

(** ** subtraction has the sign of the exact difference, and sums are numbers *)
Lemma align_value m e ez : ez <= e -> Zpos (fst (shl_align m e ez)) = Zpos m * 2 ^ (e - ez).
Proof.
  intros L. unfold shl_align. destruct (ez - e) as [|n|n] eqn:N; [|lia|]; cbn [fst].
  - replace (e - ez) with 0 by lia. lia.
  - rewrite shift_pos_correct, Z.pow_pos_fold. replace (e - ez) with (Zpos n) by lia. lia.
Qed.
Lemma aligned s m e ez : ez <= e -> emin <= ez -> cond_Zopp s (Zpos (fst (shl_align m e ez))) * 2 ^ (ez - emin) = value (S754_finite s m e).
Proof.
  intros L E. cbn [value]. assert (X : Zpos (fst (shl_align m e ez)) * 2 ^ (ez - emin) = Zpos m * 2 ^ (e - emin)).
  { rewrite align_value by auto. rewrite <- Z.mul_assoc, <- Z.pow_add_r by lia. f_equal. f_equal. lia. }
  destruct s; cbn [cond_Zopp]; lia.
Qed.
Lemma normalize_sign m e : emin <= e -> ok (binary_normalize prec emax m e false) /\ binary_normalize prec emax m e false <> S754_nan /\
  SFleb (binary_normalize prec emax m e false) (S754_zero false) = (m <=? 0).
Proof.
  intros E. destruct m as [|p|p]; cbn [binary_normalize].
  - repeat split; discriminate.
  - pose proof (binary_round_spec false p e E) as H. destruct (binary_round _ _ _ _ _) as [s|s| |s m' e']; [destruct H|subst s|destruct H|destruct H as (-> & H)]; (split; [first [exact H | reflexivity]|]); (split; [discriminate|reflexivity]).
  - pose proof (binary_round_spec true p e E) as H. destruct (binary_round _ _ _ _ _) as [s|s| |s m' e']; [destruct H|subst s|destruct H|destruct H as (-> & H)]; (split; [first [exact H | reflexivity]|]); (split; [discriminate|reflexivity]).
Qed.
Definition finite (x : spec_float) : bool := match x with S754_zero _ | S754_finite _ _ _ => true | _ => false end.
Lemma sub_le0 x y : ok x -> ok y -> x <> S754_nan -> finite y = true -> SFleb (SFsub prec emax x y) (S754_zero false) = (value x <=? value y).
Proof.
  intros A B X Y.
  destruct x as [s1|s1| |s1 m1 e1], y as [s2|s2| |s2 m2 e2]; try congruence; try discriminate Y; unfold ok in *; cbn [valid_binary] in *; cbn [SFsub].
  - destruct s1, s2; reflexivity.
  - cbn [value]. pose proof (value_finite m2 e2 B) as V. destruct s2; cbn [negb cond_Zopp SFleb SFcompare]; symmetry; [apply Z.leb_gt|apply Z.leb_le]; lia.
  - destruct s1; reflexivity.
  - cbn [value]. pose proof (value_finite m2 e2 B) as V. destruct s1, s2; cbn [negb cond_Zopp SFleb SFcompare]; symmetry; try (apply Z.leb_gt; lia); apply Z.leb_le; lia.
  - cbn [value]. pose proof (value_finite m1 e1 A) as V. destruct s1; cbn [negb cond_Zopp SFleb SFcompare]; symmetry; [apply Z.leb_le|apply Z.leb_gt]; lia.
  - apply bounded_spec in A as (A & _). apply bounded_spec in B as (B & _).
    destruct (normalize_sign (cond_Zopp s1 (Zpos (fst (shl_align m1 e1 (Z.min e1 e2)))) - cond_Zopp s2 (Zpos (fst (shl_align m2 e2 (Z.min e1 e2))))) (Z.min e1 e2) ltac:(lia)) as (_ & _ & ->).
    rewrite <- (aligned s1 m1 e1 (Z.min e1 e2)), <- (aligned s2 m2 e2 (Z.min e1 e2)) by lia. pose proof (Z.pow_pos_nonneg 2 (Z.min e1 e2 - emin)) as Q.
    set (a := cond_Zopp s1 _). set (b := cond_Zopp s2 _). set (c := 2 ^ _) in *. destruct (Z.leb_spec (a - b) 0), (Z.leb_spec (a * c) (b * c)); auto; nia.
Qed.
Lemma add_ok x y : ok x -> ok y -> x <> S754_nan -> finite y = true -> ok (SFadd prec emax x y) /\ SFadd prec emax x y <> S754_nan.
Proof.
  intros A B X Y.
  destruct x as [s1|s1| |s1 m1 e1], y as [s2|s2| |s2 m2 e2]; try congruence; try discriminate Y; unfold ok in *; cbn [valid_binary] in *; cbn [SFadd].
  - destruct s1, s2; split; auto; discriminate.
  - split; auto; discriminate.
  - split; auto; discriminate.
  - split; auto; discriminate.
  - split; auto; discriminate.
  - apply bounded_spec in A as (A & _). apply bounded_spec in B as (B & _). match goal with |- context[binary_normalize _ _ ?m ?e _] => destruct (normalize_sign m e ltac:(lia)) as (U & V & _) end. auto.
Qed.
