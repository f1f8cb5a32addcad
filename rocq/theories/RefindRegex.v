(** Regular expressions without $ that do not match the empty string are plain patterns. *)
From Verif Require Import PyBaseProof PyStrProof Regex RegexProof RefindModel RefindSpec RefindProof RefindProof2.
From Coq Require Import Lia.

(** no $ in it *)
Fixpoint eol_free (r : re) : bool :=
  match r with Eps | Chr _ => true | Eol => false | Seq a b | Alt a b => eol_free a && eol_free b | Star a | Grp _ a => eol_free a end.
(** it can match the empty string *)
Fixpoint nullable (r : re) : bool :=
  match r with Eps | Star _ | Eol => true | Chr _ => false | Seq a b => nullable a && nullable b | Alt a b => nullable a || nullable b | Grp _ a => nullable a end.
(** the length of the match of [r] at the beginning of [t]; of the match that is found when empty ones are rejected *)
Definition regex_length (r : re) (t : str) : option nat := rmatch r t [] (fun rest _ => Some (length t - length rest)).
Definition regex_length_nonempty (r : re) (t : str) : option nat := rmatch r t [] (fun rest _ => if length rest <? length t then Some (length t - length rest) else None).
(** the compiled pattern of a regular expression without $ *)
Definition regex_pattern (r : re) : pattern :=
  let at_pos f (s : str) a e := if a <=? e then option_map (Nat.add a) (f r (between s a (min e (length s)))) else None in
  Pattern (at_pos regex_length) (at_pos regex_length_nonempty).

Lemma nonnullable_shorter r s g s' g' : rel r s g s' g' -> length s' <= length s /\ (nullable r = false -> length s' < length s).
Proof.
  induction 1; cbn [nullable] in *; try (split; [auto|discriminate]).
  - cbn; split; [lia|intros; lia].
  - destruct IHrel1, IHrel2. split; [lia|]. intros E. apply andb_false_iff in E as [E|E]; [specialize (H2 E)|specialize (H4 E)]; lia.
  - destruct IHrel. split; auto. intros E. apply orb_false_iff in E. tauto.
  - destruct IHrel. split; auto. intros E. apply orb_false_iff in E. tauto.
  - lia.
  - auto.
Qed.

Lemma rmatch_ext R r : forall s g (k1 k2 : str -> groups -> option R), (forall s' g', rel r s g s' g' -> k1 s' g' = k2 s' g') -> rmatch r s g k1 = rmatch r s g k2.
Proof.
  induction r as [|p|a IHa b IHb|a IHa b IHb|a IHa|i a IHa|]; intros s g k1 k2 H.
  - apply H. constructor.
  - cbn [rmatch]. destruct s as [|c t]; auto. destruct (p c) eqn:E; auto. apply H. constructor; auto.
  - cbn [rmatch]. apply IHa. intros s1 g1 R1. apply IHb. intros s2 g2 R2. apply H. econstructor; eauto.
  - cbn [rmatch]. rewrite (IHa s g k1 k2) by (intros; apply H; constructor; auto). rewrite (IHb s g k1 k2) by (intros; apply H; apply RelAltR; auto). auto.
  - cbn [rmatch].
    assert (L : forall n s g, (forall s' g', rel (Star a) s g s' g' -> k1 s' g' = k2 s' g') ->
      (fix loop (n : nat) (s : str) (g : groups) : option R :=
          match n with
          | O => k1 s g
          | S n => match rmatch a s g (fun s' g' => if length s' <? length s then loop n s' g' else None) with
                   | Some x => Some x
                   | None => k1 s g
                   end
          end) n s g = (fix loop (n : nat) (s : str) (g : groups) : option R :=
          match n with
          | O => k2 s g
          | S n => match rmatch a s g (fun s' g' => if length s' <? length s then loop n s' g' else None) with
                   | Some x => Some x
                   | None => k2 s g
                   end
          end) n s g).
    { induction n as [|n IHn]; intros s0 g0 H0; [apply H0; constructor|].
      rewrite (H0 s0 g0) by constructor. 
      match goal with |- match ?x with _ => _ end = match ?y with _ => _ end => assert (x = y) as -> end; auto.
      apply IHa. intros s1 g1 R1. destruct (length s1 <? length s0) eqn:Q; auto. apply Nat.ltb_lt in Q. apply IHn.
      intros s2 g2 R2. apply H0. eapply RelStar1; eauto. }
    apply L; auto.
  - cbn [rmatch]. apply IHa. intros s1 g1 R1. apply H. constructor; auto.
  - cbn [rmatch]. destruct (at_eol s) eqn:E; auto. apply H. constructor; auto.
Qed.

Lemma regex_length_nonempty_eq r t : nullable r = false -> regex_length_nonempty r t = regex_length r t.
Proof.
  intros N. unfold regex_length, regex_length_nonempty. apply rmatch_ext. intros s' g' R1.
  apply nonnullable_shorter in R1 as [_ L]. rewrite (proj2 (Nat.ltb_lt _ _) (L N)). auto.
Qed.

Section Cut.
  Context (z : str).
  (** [x] is how much is left after a match in a text that ends with [z] *)
  Definition overruns (x : nat) : Prop := x < length z.
  (** two continuations, one for the text with [z], one for the text without it *)
  Definition agree (k1 k2 : str -> groups -> option nat) : Prop :=
    (forall u g, match k1 (u ++ z) g with
                 | None => k2 u g = None
                 | Some x => overruns x \/ exists y, x = y + length z /\ k2 u g = Some y
                 end) /\
    (forall t g x, length t < length z -> k1 t g = Some x -> overruns x).
  Definition same_groups (k : str -> groups -> option nat) : Prop := forall t g g', k t g = k t g'.

  Lemma rmatch_same_groups r : forall t g g' (k : str -> groups -> option nat) k', (forall t g g', k t g = k' t g') -> rmatch r t g k = rmatch r t g' k'.
  Proof.
    induction r as [|p|a IHa b IHb|a IHa b IHb|a IHa|i a IHa|]; intros t g g' k k' H; cbn [rmatch].
    - apply H.
    - destruct t as [|c t]; auto. destruct (p c); auto.
    - apply IHa. intros t1 g1 g1'. apply IHb. auto.
    - rewrite (IHa t g g' k k') by auto. rewrite (IHb t g g' k k') by auto. auto.
    - generalize (length t) as n. intros n. revert t g g'. induction n as [|n IHn]; intros t g g'; [apply H|].
      rewrite (H t g g'). match goal with |- match ?x with _ => _ end = match ?y with _ => _ end => assert (x = y) as -> end; auto.
      apply IHa. intros t1 g1 g1'. destruct (length t1 <? length t); auto.
    - apply IHa. intros; apply H.
    - destruct (at_eol t); auto.
  Qed.

  Lemma overrun_short r k1 k2 : agree k1 k2 -> forall t g x, length t < length z -> rmatch r t g k1 = Some x -> overruns x.
  Proof.
    intros [_ A] t g x L H. apply rmatch_sound in H as (s' & g' & R1 & H). apply A in H; auto.
    apply rel_suffix in R1 as [q ->]. rewrite app_length in L. lia.
  Qed.

  Lemma cut_off r : eol_free r = true -> forall k1 k2, agree k1 k2 -> same_groups k1 -> same_groups k2 -> agree (fun t g => rmatch r t g k1) (fun t g => rmatch r t g k2).
  Proof.
    intros EF. enough (X : forall k1 k2, agree k1 k2 -> same_groups k1 -> same_groups k2 -> forall u g, match rmatch r (u ++ z) g k1 with
                 | None => rmatch r u g k2 = None
                 | Some x => overruns x \/ exists y, x = y + length z /\ rmatch r u g k2 = Some y
                 end).
    { intros k1 k2 A G1 G2. split; [apply X; auto|]. 
 intros t g x L H. eapply overrun_short; eauto. }
    induction r as [|p|a IHa b IHb|a IHa b IHb|a IHa|i a IHa|]; intros k1 k2 A G1 G2 u g.
    - apply A.
    - cbn [rmatch]. destruct u as [|c u]; cbn [app].
      + destruct z as [|c z'] eqn:Ez; auto. rewrite <- Ez in *. destruct (p c); auto.
        destruct (k1 z' g) as [x|] eqn:K; auto. left. apply (proj2 A) in K; auto. rewrite Ez; cbn; lia.
      + destruct (p c); auto. apply A.
    - cbn [eol_free] in EF. apply andb_true_iff in EF as [E1 E2]. cbn [rmatch].
      apply (IHa E1 (fun s g => rmatch b s g k1) (fun s g => rmatch b s g k2)).
      + split; [apply IHb; auto|]. intros t g0 x L H. eapply overrun_short; eauto.
      + intros t g0 g0'. apply rmatch_same_groups. auto.
      + intros t g0 g0'. apply rmatch_same_groups. auto.
    - cbn [eol_free] in EF. apply andb_true_iff in EF as [E1 E2]. cbn [rmatch].
      pose proof (IHa E1 k1 k2 A G1 G2 u g) as HA. pose proof (IHb E2 k1 k2 A G1 G2 u g) as HB.
      destruct (rmatch a (u ++ z) g k1) as [x|].
      + destruct HA as [O|(y & -> & ->)]; [left; auto|right; eauto].
      + rewrite HA. auto.
    - cbn [eol_free] in EF. cbn [rmatch].
      set (l1 := fix loop (n : nat) (s : str) (g : groups) : option nat :=
          match n with
          | O => k1 s g
          | S n => match rmatch a s g (fun s' g' => if length s' <? length s then loop n s' g' else None) with
                   | Some x => Some x
                   | None => k1 s g
                   end
          end).
      set (l2 := fix loop (n : nat) (s : str) (g : groups) : option nat :=
          match n with
          | O => k2 s g
          | S n => match rmatch a s g (fun s' g' => if length s' <? length s then loop n s' g' else None) with
                   | Some x => Some x
                   | None => k2 s g
                   end
          end).
      assert (U1 : forall n s g, l1 (S n) s g = match rmatch a s g (fun s' g' => if length s' <? length s then l1 n s' g' else None) with Some x => Some x | None => k1 s g end) by reflexivity.
      assert (U2 : forall n s g, l2 (S n) s g = match rmatch a s g (fun s' g' => if length s' <? length s then l2 n s' g' else None) with Some x => Some x | None => k2 s g end) by reflexivity.
      assert (V1 : forall s g, l1 0 s g = k1 s g) by reflexivity.
      assert (V2 : forall s g, l2 0 s g = k2 s g) by reflexivity.
      clearbody l1 l2.
      assert (Q1 : forall n t g g', l1 n t g = l1 n t g').
      { induction n as [|n IHn]; intros t g0 g0'; [rewrite !V1; apply G1|rewrite !U1]. rewrite (G1 t g0 g0').
        match goal with |- match ?x with _ => _ end = match ?y with _ => _ end => assert (x = y) as -> end; auto.
        apply rmatch_same_groups. intros t1 g1 g1'. match goal with |- (if ?b then _ else _) = _ => destruct b; [apply IHn|auto] end. }
      assert (Q2 : forall n t g g', l2 n t g = l2 n t g').
      { induction n as [|n IHn]; intros t g0 g0'; [rewrite !V2; apply G2|rewrite !U2]. rewrite (G2 t g0 g0').
        match goal with |- match ?x with _ => _ end = match ?y with _ => _ end => assert (x = y) as -> end; auto.
        apply rmatch_same_groups. intros t1 g1 g1'. match goal with |- (if ?b then _ else _) = _ => destruct b; [apply IHn|auto] end. }
      assert (O1 : forall n t g x, length t < length z -> l1 n t g = Some x -> overruns x).
      { induction n as [|n IHn]; intros t g0 x L H; [rewrite V1 in H; eapply (proj2 A); eauto|rewrite U1 in H].
        match type of H with match ?e with _ => _ end = _ => destruct e eqn:E end; [|eapply (proj2 A); eauto].
        injection H as <-. apply rmatch_sound in E as (s' & g' & R1 & E). destruct (length s' <? length t) eqn:B; [|discriminate].
        apply Nat.ltb_lt in B. eapply IHn; [|exact E]. lia. }
      assert (L : forall n1 n2 u g, length u + length z <= n1 -> length u <= n2 -> match l1 n1 (u ++ z) g with
                 | None => l2 n2 u g = None
                 | Some x => overruns x \/ exists y, x = y + length z /\ l2 n2 u g = Some y
                 end).
      { induction n1 as [|n1 IHn]; intros n2 u0 g0 L1 L2.
        - destruct u0; cbn in L1; [|lia].
          assert (T : l2 n2 [] g0 = k2 [] g0).
          { destruct n2; auto. rewrite U2, rmatch_none; auto. }
          rewrite V1, T. apply (proj1 A []).
        - destruct n2 as [|n2].
          + destruct u0; [|cbn in L2; lia]. rewrite U1, V2. cbn [app].
            match goal with |- match match ?e with _ => _ end with _ => _ end => destruct e eqn:E end.
            * left. apply rmatch_sound in E as (s' & g' & R1 & E). destruct (length s' <? length z) eqn:B; [|discriminate].
              apply Nat.ltb_lt in B. eapply O1; eauto.
            * apply (proj1 A []).
          + rewrite U1, U2.
            assert (HA : match rmatch a (u0 ++ z) g0 (fun s' g' => if length s' <? length (u0 ++ z) then l1 n1 s' g' else None) with
                 | None => rmatch a u0 g0 (fun s' g' => if length s' <? length u0 then l2 n2 s' g' else None) = None
                 | Some x => overruns x \/ exists y, x = y + length z /\ rmatch a u0 g0 (fun s' g' => if length s' <? length u0 then l2 n2 s' g' else None) = Some y
                 end).
            { apply IHa; auto.
              - split.
                + intros u1 g1. rewrite !app_length.
                  replace (length u1 + length z <? length u0 + length z) with (length u1 <? length u0) by (destruct (Nat.ltb_spec (length u1) (length u0)), (Nat.ltb_spec (length u1 + length z) (length u0 + length z)); auto; lia).
                  destruct (Nat.ltb_spec (length u1) (length u0)); auto. apply IHn; lia.
                + intros t g1 x Lt H. destruct (length t <? length (u0 ++ z)); [|discriminate]. eapply O1; eauto.
              - intros t g1 g1'. destruct (length t <? _); auto.
              - intros t g1 g1'. destruct (length t <? _); auto. }
            destruct (rmatch a (u0 ++ z) g0 _) as [x|].
            * destruct HA as [O|(y & -> & ->)]; [left; auto|right; eauto].
            * rewrite HA. apply A. }
      rewrite app_length. apply L; lia.
    - cbn [eol_free] in EF. cbn [rmatch].
      erewrite (rmatch_same_groups a (u ++ z) g g _ k1) by (intros; apply G1).
      erewrite (rmatch_same_groups a u g g _ k2) by (intros; apply G2). apply IHa; auto.
    - discriminate.
  Qed.
End Cut.

(** What is left after the match of a text does not depend on text behind that is not looked at. *)
Lemma regex_length_left r t : regex_length r t = option_map (fun x => length t - x) (rmatch r t [] (fun rest _ => Some (length rest))).
Proof.
  unfold regex_length. assert (forall s g, rmatch r s g (fun rest _ => Some (length t - length rest)) = option_map (fun x => length t - x) (rmatch r s g (fun rest _ => Some (length rest)))).
  { intros s g. change (fun (rest : str) (_ : groups) => Some (length t - length rest)) with (fun (rest : str) (g : groups) => option_map (fun x => length t - x) ((fun (rest : str) (_ : groups) => Some (length rest)) rest g)).
    generalize (fun (rest : str) (_ : groups) => Some (length rest)) as k. revert s g.
    induction r as [|p|a IHa b IHb|a IHa b IHb|a IHa|i a IHa|]; intros s g k; cbn [rmatch].
    - auto.
    - destruct s as [|c s]; auto. destruct (p c); auto.
    - rewrite <- (IHa s g (fun s g => rmatch b s g k)). apply rmatch_ext. intros; apply IHb.
    - rewrite IHa, IHb. destruct (rmatch a s g k); auto.
    - generalize (length s) as n. intros n. revert s g. induction n as [|n IHn]; intros s g; auto.
      match goal with |- match ?x with _ => _ end = option_map ?f (match ?y with _ => _ end) => assert (x = option_map f y) as -> end.
      + rewrite <- IHa. apply rmatch_ext. intros s' g' _. destruct (length s' <? length s); auto.
      + match goal with |- _ = option_map _ (match ?y with _ => _ end) => destruct y end; auto.
    - rewrite <- IHa. auto.
    - destruct (at_eol s); auto. }
  apply H.
Qed.

Theorem regex_plain r : eol_free r = true -> nullable r = false -> plain_matcher (regex_length r).
Proof.
  intros EF NU.
  assert (C : forall t j, match rmatch r t [] (fun rest _ => Some (length rest)) with
    | None => rmatch r (firstn j t) [] (fun rest _ => Some (length rest)) = None
    | Some x => x < length (skipn j t) \/ exists y, x = y + length (skipn j t) /\ rmatch r (firstn j t) [] (fun rest _ => Some (length rest)) = Some y end).
  { intros t j. pose proof (cut_off (skipn j t) r EF (fun rest _ => Some (length rest)) (fun rest _ => Some (length rest))) as H.
    assert (A : agree (skipn j t) (fun rest (_ : groups) => Some (length rest)) (fun rest (_ : groups) => Some (length rest))).
    { split.
      - intros u g. right. exists (length u). rewrite app_length. auto.
      - intros u g x L E. injection E as <-. exact L. }
    specialize (H A ltac:(intros ? ? ?; auto) ltac:(intros ? ? ?; auto)). destruct H as [H _]. specialize (H (firstn j t) []).
    rewrite firstn_skipn in H. exact H. }
  split.
  - intros t k H. unfold regex_length in H. apply rmatch_sound in H as (s' & g' & R1 & H). injection H as <-.
    apply nonnullable_shorter in R1 as [L1 L2]. specialize (L2 NU). lia.
  - intros t k j H L. rewrite regex_length_left in *. specialize (C t j).
    destruct (rmatch r t [] (fun rest _ => Some (length rest))) as [x|] eqn:E; cbn in H; [|discriminate]. injection H as H.
    apply rmatch_sound in E as (s' & g' & R1 & E). injection E as <-. apply nonnullable_shorter in R1 as [L1 L2]. specialize (L2 NU).
    rewrite skipn_length in C. destruct C as [C|(y & C1 & C2)]; [lia|]. rewrite C2. cbn. f_equal. rewrite firstn_length. lia.
  - intros t j H. rewrite regex_length_left in *. specialize (C t j). intros N. apply H.
    destruct (rmatch r t [] (fun rest _ => Some (length rest))); [discriminate|]. rewrite C. auto.
Qed.
Theorem regex_pattern_plain r s : eol_free r = true -> nullable r = false -> plain (regex_pattern r) s.
Proof.
  intros EF NU. exists (regex_length r). split; [apply regex_plain; auto|]. split; [reflexivity|].
  intros a e. cbn. destruct (a <=? e); auto. rewrite regex_length_nonempty_eq; auto.
Qed.

Lemma first_word_plain words : Forall (fun w : str => w <> []) words -> plain_matcher (first_word words).
Proof.
  intros F. split.
  - intros t k. induction words as [|w words IH]; cbn; [discriminate|]. inversion F; subst. destruct (is_prefix w t) eqn:E; auto.
    intros K; injection K as <-. apply is_prefix_spec in E. apply (f_equal (@length _)) in E. rewrite firstn_length in E.
    destruct w; [congruence|]. cbn [length] in *. lia.
  - intros t k j. induction words as [|w words IH]; cbn; [discriminate|]. inversion F; subst. destruct (is_prefix w t) eqn:E.
    + intros K L; injection K as <-. apply is_prefix_spec in E. assert (is_prefix w (firstn j t) = true) as ->; auto.
      apply is_prefix_spec. rewrite firstn_firstn. replace (min (length w) j) with (length w) by lia. auto.
    + intros K L. assert (is_prefix w (firstn j t) = false) as ->; auto.
      destruct (is_prefix w (firstn j t)) eqn:E'; auto. exfalso. apply is_prefix_spec in E'. rewrite firstn_firstn in E'.
      assert (is_prefix w t = true); [|congruence]. apply is_prefix_spec. destruct (Nat.le_gt_cases (length w) j) as [G|G].
      * replace (min (length w) j) with (length w) in E' by lia. auto.
      * replace (min (length w) j) with j in E' by lia. pose proof (f_equal (@length _) E') as E2. rewrite firstn_length in E2. lia.
  - intros t j. induction words as [|w words IH]; cbn; auto. inversion F; subst. destruct (is_prefix w t) eqn:E; [discriminate|].
    destruct (is_prefix w (firstn j t)) eqn:E'; auto. exfalso. apply is_prefix_spec in E'. rewrite firstn_firstn in E'.
    assert (is_prefix w t = true); [|congruence]. apply is_prefix_spec. destruct (Nat.le_gt_cases (length w) j) as [G|G].
    * replace (min (length w) j) with (length w) in E' by lia. auto.
    * replace (min (length w) j) with j in E' by lia. pose proof (f_equal (@length _) E') as E2. rewrite firstn_length in E2. lia.
Qed.
Theorem words_pattern_plain words s : Forall (fun w : str => w <> []) words -> plain (words_pattern words) s.
Proof.
  intros F. exists (first_word words). split; [apply first_word_plain; auto|]. split; [reflexivity|].
  intros a e. unfold words_pattern. cbn [p_match p_match_nonempty]. destruct (a <=? e); [|reflexivity]. do 2 f_equal.
  induction F as [|w words N F IH]; cbn [filter]; auto. destruct w; [congruence|]. cbn [length Nat.eqb negb]. f_equal; auto.
Qed.
