(** The property C46 (int_to_words). *)
From Verif Require Import PyBaseProof PyStrProof IntWordsModel IntWordsSpec IntWordsProof.

(** Every integer smaller than 10**75 has a numeral, which reads as that integer; the reader
    accepts the library's two misspellings besides English. *)
Theorem C46_read_back : forall i flowery, - 10 ^ 75 < i < 10 ^ 75 ->
  exists w, int_to_words i flowery false = Ok w /\ read (scales ++ misspelled_scales) w = Some i.
Proof. intros i fl I. destruct (numerals i fl I) as (wc & wo & a & x & y & E & _ & R & _). eauto. Qed.
Print Assumptions C46_read_back.
Theorem C46_ordinal : forall i flowery, - 10 ^ 75 < i < 10 ^ 75 ->
  exists w, int_to_words i flowery true = Ok w /\ read_ordinal (scales ++ misspelled_scales) (irregular_ordinals ++ misspelled_ordinals) w = Some i.
Proof.
  intros i fl I. destruct (numerals i fl I) as (wc & wo & a & x & y & E & E' & R & Wc & Wo & C). exists wo. split; auto.
  unfold read_ordinal. rewrite Wo, rev_app_distr. cbn [rev app]. fold all_scales. fold all_irregular. rewrite C, rev_involutive. unfold read in R. rewrite Wc in R. exact R.
Qed.
Print Assumptions C46_ordinal.
Theorem C46_large : forall i flowery ordinal, 10 ^ 75 <= i \/ i <= - 10 ^ 75 -> int_to_words i flowery ordinal = Ok (str_int i).
Proof. intros i fl o I. unfold int_to_words. cbn [int_to_words_fuel]. assert ((10 ^ 75 <=? i) || (i <=? - 10 ^ 75) = true) as -> by lia. reflexivity. Qed.
Print Assumptions C46_large.

Lemma digits_words (s : str) : s <> [] -> forallb is_digit s = true -> words_of s = [s] /\ words_of (45%N :: s) = [s].
Proof.
  intros N D. assert (W : words_of s = [s]).
  { apply words_single; auto. destruct (existsb divider s) eqn:E; auto. apply existsb_exists in E. destruct E as (c & Ic & Dc). rewrite forallb_forall in D. specialize (D c Ic).
    unfold divider, is_digit, between in *. rewrite andb_true_iff, !N.leb_le in D. rewrite !orb_true_iff, !N.eqb_eq in Dc. lia. }
  split; auto; rewrite ?words_div; auto.
Qed.
Lemma lookup_letters (dict : list (str * Z)) c (s : str) : is_digit c = true -> forallb (fun p => match fst p with d :: _ => negb (is_digit d) | [] => true end) dict = true -> lookup dict (c :: s) = None.
Proof.
  intros D F. unfold lookup. destruct (find _ dict) as [p|] eqn:E; auto. apply find_some in E. destruct E as [I E]. rewrite forallb_forall in F. specialize (F p I).
  apply str_eqb_eq in E. destruct p as [k v]. cbn [fst] in *. subst k. rewrite D in F. discriminate.
Qed.
Lemma str_int_words i : exists s, words_of (str_int i) = [s] /\ s <> [] /\ forallb is_digit s = true /\ int_of s = Z.abs i.
Proof.
  unfold str_int. destruct (i <? 0) eqn:E.
  - destruct (dec_spec (Z.to_N (- i))) as (A & B & C). exists (dec (Z.to_N (- i))). split; [now apply digits_words|]. split; auto. split; auto. rewrite A. lia.
  - destruct (dec_spec (Z.to_N i)) as (A & B & C). exists (dec (Z.to_N i)). split; [now apply digits_words|]. split; auto. split; auto. rewrite A. lia.
Qed.
Lemma str_int_inj i j : str_int i = str_int j -> i = j.
Proof.
  intros E. destruct (str_int_words i) as (s & W & _ & _ & A). destruct (str_int_words j) as (s' & W' & _ & _ & A'). rewrite E, W' in W. injection W as <-. rewrite A in A'.
  assert (Neg : forall k, (exists t, str_int k = 45%N :: t) <-> k < 0).
  { intros k. unfold str_int. destruct (k <? 0) eqn:K; [split; [lia|eauto]|]. split; [|lia]. intros [t Et]. destruct (dec_spec (Z.to_N k)) as (_ & B & _). rewrite Et in B. discriminate. }
  assert (X : i < 0 <-> j < 0) by (rewrite <- !Neg, E; tauto). lia.
Qed.
Lemma read_digits i : read all_scales (str_int i) = None /\ read_ordinal all_scales all_irregular (str_int i) = None.
Proof.
  destruct (str_int_words i) as (s & W & N & D & _). destruct s as [|c s]; [congruence|]. pose proof D as D'. cbn [forallb] in D. apply andb_true_iff in D. destruct D as [Dc D].
  assert (U : lookup units (c :: s) = None) by (apply lookup_letters; auto). assert (Sc : lookup all_scales (c :: s) = None) by (apply lookup_letters; auto).
  assert (NE : forall d t, is_digit d = false -> str_eqb (c :: s) (d :: t) = false).
  { intros d t Dd. cbn. destruct (c =? d)%N eqn:E; auto. apply N.eqb_eq in E. congruence. }
  split.
  - unfold read, read_list. rewrite W. change (u "negative") with (110%N :: u "egative"). rewrite NE by reflexivity. unfold read_positive. cbn [read_words]. unfold read_word. change (u "and") with (97%N :: u "nd"). rewrite NE by reflexivity. now rewrite U, Sc.
  - unfold read_ordinal. rewrite W. cbn [rev app]. assert (card (c :: s) = None) as ->; auto. unfold cardinal_of. destruct (find _ all_irregular) as [p|] eqn:F.
    + apply find_some in F. destruct F as [I E]. apply str_eqb_eq in E. assert (X : forallb (fun p => match fst p with d :: _ => negb (is_digit d) | [] => true end) all_irregular = true) by reflexivity.
      rewrite forallb_forall in X. specialize (X p I). destruct p as [k v]. cbn [fst] in *. subst k. rewrite Dc in X. discriminate.
    + rewrite forallb_forall in D'. assert (R : forall d, In d (rev (c :: s)) -> is_digit d = true) by (intros d I; apply D'; now apply in_rev).
      destruct (rev (c :: s)) as [|d r]; auto. specialize (R d ltac:(left; auto)). destruct (N.eq_dec d 104) as [->|Nd]; [discriminate|].
      destruct d as [|d]; auto. repeat (destruct d as [d|d|]; try reflexivity; try congruence).
Qed.
(** Distinct integers, however large, have distinct words. *)
Theorem C46_distinct : forall i j flowery ordinal, int_to_words i flowery ordinal = int_to_words j flowery ordinal -> i = j.
Proof.
  intros i j fl o E. assert (Rd : forall k, exists w, int_to_words k fl o = Ok w /\ (if o then read_ordinal all_scales all_irregular w else read all_scales w) = if (Z.abs k <? 10 ^ 75) then Some k else None).
  { intros k. destruct (Z.abs k <? 10 ^ 75) eqn:K.
    - apply Z.ltb_lt in K. assert (B : - 10 ^ 75 < k < 10 ^ 75) by lia. destruct o; [exact (C46_ordinal k fl B)|exact (C46_read_back k fl B)].
    - apply Z.ltb_ge in K. exists (str_int k). split; [apply C46_large; lia|]. destruct (read_digits k). destruct o; auto. }
  destruct (Rd i) as (w & Ei & Ri). destruct (Rd j) as (w' & Ej & Rj). rewrite Ei, Ej in E. injection E as <-. rewrite Ri in Rj.
  destruct (Z.abs i <? 10 ^ 75) eqn:Ki, (Z.abs j <? 10 ^ 75) eqn:Kj; try congruence. apply Z.ltb_ge in Ki, Kj.
  rewrite C46_large in Ei, Ej by lia. apply str_int_inj. congruence.
Qed.
Print Assumptions C46_distinct.
(** It is not always English: a scale and an ordinal are misspelled, and there are extra blanks. *)
Theorem C46_english_refuted :
  int_to_words (10 ^ 48) true false = Ok (u "one qindecillion") /\ read scales (u "one qindecillion") = None /\
  int_to_words 12 true true = Ok (u "twelveth") /\ read_ordinal scales irregular_ordinals (u "twelveth") = None /\ read_ordinal scales irregular_ordinals (u "twelfth") = Some 12 /\
  int_to_words (10 ^ 33) true false = Ok (u "one   decillion").
Proof. repeat split; vm_compute; reflexivity. Qed.
Print Assumptions C46_english_refuted.
Example C46_witness : int_to_words (-1234567) true false = Ok (u "negative one million, two hundred and thirty-four thousand, five hundred and sixty-seven") /\
  int_to_words 1234567 false true = Ok (u "one million two hundred thirty-four thousand five hundred sixty-seventh") /\
  read scales (u "two million, three hundred and five thousand and one") = Some 2305001.
Proof. repeat split; vm_compute; reflexivity. Qed.
