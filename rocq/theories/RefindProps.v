(** The theorems about re_partition, reversed_re_finditer and re_rpartition. *)
From Verif Require Import PyBaseProof Regex RefindModel RefindSpec RefindProof RefindProof2 RefindRegex.
From Coq Require Import Lia.

(** ** every pattern: the shape of the tuples *)
Lemma alternates_none : forall count s, alternates count (Text s :: concat (repeat [NoMatch; Text []] count)).
Proof. induction count as [|count IH]; intros s; cbn; auto. Qed.
Lemma alternates_none_right : forall count s, alternates count (concat (repeat [Text []; NoMatch] count) ++ [Text s]).
Proof. induction count as [|count IH]; intros s; cbn; auto. Qed.
Lemma alternates_snoc : forall count l m t, alternates count l -> alternates (S count) (l ++ [Match m; Text t]).
Proof.
  induction count as [|count IH]; intros l m t H.
  - destruct l as [|[] [|]]; cbn in *; try tauto.
  - destruct l as [|[] [|[] l]]; cbn in H; try tauto; apply (IH l m t) in H; exact H.
Qed.
Lemma partition_loop_shape whole : forall count l s r, partition_loop whole count l s = Ok r -> alternates count r.
Proof.
  induction count as [|count IH]; cbn [partition_loop]; intros l s r H.
  - injection H as <-. exact I.
  - destruct l as [|m l]; [injection H as <-; apply (alternates_none (S count))|].
    destruct (partition _ s) as [[[before w] after]|]; cbn [rbind] in H; [|discriminate].
    destruct (partition_loop whole count l after) eqn:E; cbn in H; [|discriminate]. injection H as <-. cbn. eapply IH; eauto.
Qed.
Lemma rpartition_loop_shape whole : forall count l s r, rpartition_loop whole count l s = Ok r -> alternates count r.
Proof.
  induction count as [|count IH]; cbn [rpartition_loop]; intros l s r H.
  - injection H as <-. exact I.
  - destruct l as [|m l]; [injection H as <-; apply (alternates_none_right (S count))|].
    destruct (rpartition _ s) as [[[before w] after]|]; cbn [rbind] in H; [|discriminate].
    destruct (rpartition_loop whole count l before) eqn:E; cbn in H; [|discriminate]. injection H as <-. apply alternates_snoc. eapply IH; eauto.
Qed.

(** C60: re_partition returns 2*count+1 elements, text and matches in turn, or raises ValueError. *)
Theorem C60_shape (p : pattern) (s : str) (count : Z) :
  match re_partition s p count with
  | Ok l => (0 <= count)%Z /\ alternates (Z.to_nat count) l
  | Err e => e = ValueError
  end.
Proof.
  unfold re_partition. destruct (Z.eqb_spec count 1) as [->|].
  - destruct (re_search p s) as [m|]; [|split; [lia|exact I]]. unfold partition. destruct (group0 s m) eqn:G; cbn [rbind]; [reflexivity|].
    destruct (find _ s); cbn [rbind]; (split; [lia|exact I]).
  - destruct (Z.eqb_spec count 0) as [->|]; [split; [lia|exact I]|]. destruct (Z.ltb_spec count 0); [reflexivity|].
    destruct (partition_loop s (Z.to_nat count) (finditer p s) s) as [r|e] eqn:E; [split; [auto|eapply partition_loop_shape; eauto]|].
    revert E. generalize (finditer p s) as l. generalize s at 2 as t. induction (Z.to_nat count) as [|c IH]; cbn [partition_loop]; intros t l E; [discriminate|].
    destruct l as [|m l]; [discriminate|]. unfold partition in E. destruct (group0 s m); cbn [rbind] in E; [injection E; auto|].
    destruct (find _ t); cbn [rbind] in E; (destruct (partition_loop s c l _) eqn:E2; cbn in E; [discriminate|injection E as <-; eapply IH; eauto]).
Qed.
Print Assumptions C60_shape.
Theorem C60_negative (p : pattern) (s : str) (count : Z) : (count < 0)%Z -> re_partition s p count = Err ValueError /\ re_rpartition s p count = Err ValueError.
Proof.
  intros L. unfold re_partition, re_rpartition. destruct (Z.eqb_spec count 1); [lia|]. destruct (Z.eqb_spec count 0); [lia|]. destruct (Z.ltb_spec count 0); [auto|lia].
Qed.
Print Assumptions C60_negative.

(** C60: the text is cut at the leftmost non-overlapping matches, and nothing of it is lost.
    This holds for patterns without anchors that do not match the empty string. *)
Theorem C60_partition_partial (p : pattern) (s : str) (count : Z) : plain p s -> (0 <= count)%Z ->
  exists l, leftmost p s 0 l /\ re_partition s p count = Ok (cut_at s (Z.to_nat count) l 0) /\
            concat (map (item_text s) (cut_at s (Z.to_nat count) l 0)) = s.
Proof.
  intros P L. exists (finditer p s). split; [apply finditer_plain; auto|]. split; [apply re_partition_plain; auto|].
  rewrite (cut_at_text p s P); auto. apply finditer_plain; auto.
Qed.
Print Assumptions C60_partition_partial.
Theorem C60_regex (r : re) (s : str) (count : Z) : eol_free r = true -> nullable r = false -> (0 <= count)%Z ->
  exists l, leftmost (regex_pattern r) s 0 l /\ re_partition s (regex_pattern r) count = Ok (cut_at s (Z.to_nat count) l 0) /\
            concat (map (item_text s) (cut_at s (Z.to_nat count) l 0)) = s.
Proof. intros E N. apply C60_partition_partial. apply regex_pattern_plain; auto. Qed.
Print Assumptions C60_regex.

(** With an anchor the text is cut where the text of the match first appears: 'a$' in 'aba'. *)
Definition a_at_end : pattern :=
  let f (s : str) a e := if (S a =? min e (length s)) && (nth a s 0%N =? 97)%N then Some (S a) else None in Pattern f f.
Theorem C60_anchor_refuted : exists p s m, sane p s /\ re_search p s = Some m /\
  re_partition s p 1 <> Ok [Text (firstn (fst m) s); Match m; Text (skipn (snd m) s)] /\
  re_partition s p 1 = Ok [Text []; Match m; Text (u "ba")].
Proof.
  exists a_at_end, (u "aba"), (2, 3). repeat split; try (cbn; congruence); try (cbn; discriminate);
  revert H; unfold a_at_end; cbn [p_match p_match_nonempty]; destruct (Nat.eqb_spec (S a) (min e (length (u "aba")))); cbn [andb]; try discriminate;
  destruct (_ =? _)%N; try discriminate; intros K; injection K as <-; lia.
Qed.
Print Assumptions C60_anchor_refuted.
(** A match of the empty string raises ValueError. *)
Theorem C60_empty_match_refuted (p : pattern) (s : str) a : re_search p s = Some (a, a) -> re_partition s p 1 = Err ValueError.
Proof. intros H. unfold re_partition. cbn [Z.eqb Pos.eqb]. rewrite H. unfold group0; cbn [fst snd]. rewrite Nat.sub_diag. reflexivity. Qed.
Print Assumptions C60_empty_match_refuted.
Example C60_empty_match_witness : re_search (words_pattern [u "x"; []]) (u "abc") = Some (0, 0).
Proof. reflexivity. Qed.
Example C60_witness : re_partition (u "ab, cd,ef") (words_pattern [u ", "; u ","]) 3 = Ok [Text (u "ab"); Match (2, 4); Text (u "cd"); Match (6, 7); Text (u "ef"); NoMatch; Text []].
Proof. reflexivity. Qed.
Example C60_regex_witness : let r := Plus (Chr (fun c => (c =? 44)%N)) in eol_free r = true /\ nullable r = false /\
  re_partition (u "a,,b,c") (regex_pattern r) 2 = Ok [Text (u "a"); Match (1, 3); Text (u "b"); Match (4, 5); Text (u "c")].
Proof. repeat split; reflexivity. Qed.

(** C61: whatever the pattern, reversed_re_finditer ends without an exception, every match it
    yields is one the pattern finds, and each lies wholly before the one yielded before it. *)
Theorem C61_right_to_left (p : pattern) (s : str) : sane p s ->
  snd (reversed_re_finditer p s) = None /\
  Forall (fun m => exists e, e <= length s /\ (p_match p s (fst m) e = Some (snd m) \/ p_match_nonempty p s (fst m) e = Some (snd m))) (fst (reversed_re_finditer p s)) /\
  right_to_left (fst (reversed_re_finditer p s)).
Proof. apply reversed_right_to_left. Qed.
Print Assumptions C61_right_to_left.
(** C61: for a plain pattern each match is the pattern's match in the text before the previous
    one, none that starts later ends later, and no match is left between them. *)
Theorem C61_searched (p : pattern) (s : str) : plain p s ->
  searched p s (length s) (fst (reversed_re_finditer p s)) /\ gaps_empty p s (length s) (fst (reversed_re_finditer p s)).
Proof. intros P. pose proof (reversed_searched p s P). split; auto. apply searched_gaps; auto. Qed.
Print Assumptions C61_searched.
(** C61: and if matches that start later end later, it is what searching backwards gives. *)
Theorem C61_reverse_search_partial (p : pattern) (s : str) : plain p s -> in_step p s -> reverse_search p s (length s) (fst (reversed_re_finditer p s)).
Proof. intros P I. apply searched_reverse; auto. apply reversed_searched; auto. Qed.
Print Assumptions C61_reverse_search_partial.
Theorem C61_regex (r : re) (s : str) : eol_free r = true -> nullable r = false ->
  searched (regex_pattern r) s (length s) (fst (reversed_re_finditer (regex_pattern r) s)) /\
  gaps_empty (regex_pattern r) s (length s) (fst (reversed_re_finditer (regex_pattern r) s)).
Proof. intros E N. apply C61_searched. apply regex_pattern_plain; auto. Qed.
Print Assumptions C61_regex.
(** It is not in general: for (ab|cd|bcde) in 'abcde' searching backwards gives 'bcde', but 'cd' and 'ab' are found. *)
Theorem C61_reverse_search_refuted : exists p s, plain p s /\ ~ reverse_search p s (length s) (fst (reversed_re_finditer p s)).
Proof.
  exists (words_pattern [u "ab"; u "cd"; u "bcde"]), (u "abcde"). split; [apply words_pattern_plain; repeat constructor; discriminate|].
  change (fst (reversed_re_finditer (words_pattern [u "ab"; u "cd"; u "bcde"]) (u "abcde"))) with [(2, 4); (0, 2)].
  cbn [reverse_search]. intros (_ & H & _). specialize (H 1 5 eq_refl). lia.
Qed.
Print Assumptions C61_reverse_search_refuted.
(** A pattern that matches the empty string can yield the same empty match twice: (abcdef|efg|) in 'abcdefgh'. *)
Theorem C61_duplicate_refuted : exists p s, sane p s /\ ~ NoDup (fst (reversed_re_finditer p s)).
Proof.
  exists (words_pattern [u "abcdef"; u "efg"; []]), (u "abcdefgh"). split.
  - assert (F : forall ws t k, first_word ws t = Some k -> k <= length t).
    { induction ws as [|w ws IH]; intros t k; cbn; [discriminate|]. destruct (is_prefix w t) eqn:E; auto. intros K; injection K as <-.
      apply is_prefix_spec in E. apply (f_equal (@length _)) in E. rewrite firstn_length in E. lia. }
    assert (G : forall ws t k, Forall (fun w : str => w <> []) ws -> first_word ws t = Some k -> 0 < k).
    { intros ws t k NE H. apply (pm_range _ (first_word_plain ws NE)) in H. lia. }
    split; intros a e x; unfold words_pattern; cbn [p_match p_match_nonempty]; destruct (Nat.leb_spec a e); try discriminate.
    + destruct (first_word _ _) as [k|] eqn:E; [|discriminate]. intros K; injection K as <-. apply F in E. rewrite between_length in E by lia. lia.
    + destruct (first_word _ _) as [k|] eqn:E; [|discriminate]. intros K; injection K as <-. pose proof E as E'. apply F in E. rewrite between_length in E by lia.
      apply G in E'; [lia|]. repeat constructor; discriminate.
  - intros H. vm_compute in H. repeat match goal with H : NoDup (_ :: _) |- _ => inversion H; clear H; subst end. cbn in *; intuition.
Qed.
Print Assumptions C61_duplicate_refuted.
Example C61_witness : let p := words_pattern [u "abcdef"; u "efg"; u "ab"; u "b"; u "c"; u "d"] in
  plain p (u "abcdefgh") /\ reversed_re_finditer p (u "abcdefgh") = ([(4, 7); (3, 4); (2, 3); (0, 2)], None).
Proof. split; [apply words_pattern_plain; repeat constructor; discriminate|vm_compute; reflexivity]. Qed.
Lemma same_length_in_step words n s : Forall (fun w : str => length w = n) words -> in_step (words_pattern words) s.
Proof.
  intros F. assert (G : forall t k, first_word words t = Some k -> k = n).
  { intros t k. induction F as [|w ws E F IH]; cbn; [discriminate|]. destruct (is_prefix w t); auto. congruence. }
  intros a b e x y L. unfold words_pattern; cbn [p_match]. destruct (a <=? e); [|discriminate]. destruct (b <=? e); [|discriminate].
  destruct (first_word words (between s a _)) eqn:E1; [|discriminate]. destruct (first_word words (between s b _)) eqn:E2; [|discriminate].
  apply G in E1, E2; subst. cbn. intros H1 H2; injection H1 as <-; injection H2 as <-. lia.
Qed.
Example C61_in_step_witness : let p := words_pattern [u "aba"; u "bab"] in
  plain p (u "ababab") /\ in_step p (u "ababab") /\ reversed_re_finditer p (u "ababab") = ([(3, 6); (0, 3)], None).
Proof.
  split; [apply words_pattern_plain; repeat constructor; discriminate|]. split; [apply (same_length_in_step _ 3); repeat constructor|vm_compute; reflexivity].
Qed.

(** C62: the same for re_rpartition, from the right. *)
Theorem C62_shape (p : pattern) (s : str) (count : Z) : sane p s ->
  match re_rpartition s p count with
  | Ok l => (0 <= count)%Z /\ alternates (Z.to_nat count) l
  | Err e => e = ValueError
  end.
Proof.
  intros SANE. unfold re_rpartition, take. destruct (reversed_right_to_left p s SANE) as (-> & _). cbn [rbind].
  generalize (fst (reversed_re_finditer p s)) as ms. intros ms. destruct (Z.eqb_spec count 1) as [->|].
  - destruct ms as [|m ms]; [split; [lia|exact I]|]. unfold rpartition. destruct (group0 s m) eqn:G; cbn [rbind]; [reflexivity|].
    destruct (rfind _ s); cbn [rbind]; (split; [lia|exact I]).
  - destruct (Z.eqb_spec count 0) as [->|]; [split; [lia|exact I]|]. destruct (Z.ltb_spec count 0); [reflexivity|].
    destruct (rpartition_loop s (Z.to_nat count) ms s) as [r|e] eqn:E; [split; [auto|eapply rpartition_loop_shape; eauto]|].
    revert ms E. generalize s at 2 as t. induction (Z.to_nat count) as [|c IH]; cbn [rpartition_loop]; intros t l E; [discriminate|].
    destruct l as [|m l]; [discriminate|]. unfold rpartition in E. destruct (group0 s m); cbn [rbind] in E; [injection E; auto|].
    destruct (rfind _ t); cbn [rbind] in E; (destruct (rpartition_loop s c l _) eqn:E2; cbn in E; [discriminate|injection E as <-; eapply IH; eauto]).
Qed.
Print Assumptions C62_shape.
Theorem C62_partition_partial (p : pattern) (s : str) (count : Z) : plain p s -> (0 <= count)%Z ->
  exists l, searched p s (length s) l /\ re_rpartition s p count = Ok (cut_at_right s (Z.to_nat count) l (length s)) /\
            concat (map (item_text s) (cut_at_right s (Z.to_nat count) l (length s))) = s.
Proof.
  intros P L. exists (fst (reversed_re_finditer p s)). pose proof (reversed_searched p s P) as S. split; auto. split; [apply re_rpartition_plain; auto|].
  rewrite (cut_at_right_text p s P) by auto. apply firstn_all.
Qed.
Print Assumptions C62_partition_partial.
Theorem C62_regex (r : re) (s : str) (count : Z) : eol_free r = true -> nullable r = false -> (0 <= count)%Z ->
  exists l, searched (regex_pattern r) s (length s) l /\ re_rpartition s (regex_pattern r) count = Ok (cut_at_right s (Z.to_nat count) l (length s)) /\
            concat (map (item_text s) (cut_at_right s (Z.to_nat count) l (length s))) = s.
Proof. intros E N. apply C62_partition_partial. apply regex_pattern_plain; auto. Qed.
Print Assumptions C62_regex.
(** With an anchor the text is cut where the text of the match last appears: '^a' in 'aba'. *)
Definition a_at_start : pattern :=
  let f (s : str) a e := if (a =? 0) && (1 <=? min e (length s)) && (nth a s 0%N =? 97)%N then Some 1 else None in Pattern f f.
Theorem C62_anchor_refuted : exists p s m, sane p s /\ fst (reversed_re_finditer p s) = [m] /\
  re_rpartition s p 1 <> Ok [Text (firstn (fst m) s); Match m; Text (skipn (snd m) s)] /\
  re_rpartition s p 1 = Ok [Text (u "ab"); Match m; Text []].
Proof.
  exists a_at_start, (u "aba"), (0, 1). repeat split; try (vm_compute; congruence); try (cbn; discriminate);
  revert H; unfold a_at_start; cbn [p_match p_match_nonempty]; destruct (Nat.eqb_spec a 0); cbn [andb]; try discriminate;
  destruct (Nat.leb_spec 1 (min e (length (u "aba")))); cbn [andb]; try discriminate;
  destruct (_ =? _)%N; try discriminate; intros K; injection K as <-; lia.
Qed.
Print Assumptions C62_anchor_refuted.
Example C62_witness : re_rpartition (u "ab, cd,ef") (words_pattern [u ", "; u ","]) 3 = Ok [Text []; NoMatch; Text (u "ab"); Match (2, 4); Text (u "cd"); Match (6, 7); Text (u "ef")].
Proof. reflexivity. Qed.
