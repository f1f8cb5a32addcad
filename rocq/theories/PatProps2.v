(** C117, C104: the pattern when the empty string is among the separators. *)
From Verif Require Import PyBase SplitSpec SplitProof SplitProof2 PatModel PatProof PatProof2 PatProps TypedSpec2 TypedProof TypedProps2.
Require Import ZifyBool ZifyN.

(** two patterns that match alike, or up to the groups, are alike for the general re.split as well *)
Definition same_tails (r r' : re) : Prop := forall again s, match_from again r s = match_from again r' s.
Lemma alike_tails r r' : alike r r' -> same_tails r r'.
Proof.
  intros A again s. unfold match_from. set (k := fun (t : str) (_ : groups) => if again && (length t =? length s) then None else Some t).
  assert (H : orel eq (rmatch r s [] k) (rmatch r' s [] k)).
  { apply A; auto. intros s0 g g' <-. unfold k. destruct (again && _); cbn; auto. }
  destruct (rmatch r s [] k), (rmatch r' s [] k); cbn in H; try tauto; congruence.
Qed.
Lemma grp_tails i r : same_tails (Grp i r) r.
Proof.
  intros again s. unfold match_from. set (k := fun (t : str) (_ : groups) => if again && (length t =? length s) then None else Some t).
  assert (H : orel eq (rmatch (Grp i r) s [] k) (rmatch r s [] k)).
  { cbn [rmatch]. apply (alike_refl r); auto. intros s0 g g' <-. unfold k. destruct (again && _); cbn; auto. }
  destruct (rmatch (Grp i r) s [] k), (rmatch r s [] k); cbn in H; try tauto; congruence.
Qed.
Lemma tails_search r r' : same_tails r r' -> forall s again, search_from again r s = search_from again r' s.
Proof.
  intros E s. induction s as [|c s IH]; intros again; cbn [search_from]; rewrite E; [reflexivity|]. now rewrite IH.
Qed.
Lemma tails_split r r' : same_tails r r' -> forall n s, split_any r n s = split_any r' n s.
Proof.
  intros E n s. unfold split_any. generalize (2 * length s + 1) as f. intros f. generalize false as b. revert n s.
  induction f as [|f IH]; intros n s b; cbn [split_any_fuel]; auto. rewrite (tails_search r r' E).
  destruct n as [[|n]|]; auto; destruct (search_from b r' s) as [[[? ?] ?]|]; auto; now rewrite IH.
Qed.

(** one match: as if the empty string were not there if there is another separator, otherwise the empty string *)
Lemma any_match seps separate s : In [] seps -> exists g w t, re_match (separators_re seps separate) s = Some (g, t) /\ s = w ++ t /\
  (sep_at (ne seps) s 0 -> one_split separate (ne seps) w t) /\ (~ sep_at (ne seps) s 0 -> w = []).
Proof.
  intros I. unfold re_match. destruct (match_ne _ separate seps s [] (fun s g => Some (g, s)) I) as [H1 H2].
  pose proof (match_spec separate (ne seps) s (ne_nonempty seps)) as M. unfold re_match in M.
  destruct (rmatch (separators_re (ne seps) separate) s [] (fun s g => Some (g, s))) as [[g t]|] eqn:E.
  - destruct M as (w & Ew & O & _). exists g, w, t. rewrite H2. split; auto. split; auto. split; auto. intros N. destruct N. rewrite Ew. exact (one_split_sep _ _ _ _ O).
  - exists [], [], s. split; [now apply H1|]. split; auto. split; [intros Q; contradiction|auto].
Qed.

(** The empty string among the separators: the pattern is still well-formed, and matches everywhere: where another separator is, exactly what the pattern
    for the others matches, elsewhere the empty string; group 1 is the text matched; and re.split with it is the split that C104_empty_separator is about. *)
Theorem C117_empty_separator (special space : chr -> bool) (seps others : list str) (separate keep : bool) :
  escapes_well special -> no_meta_space space -> In [] seps -> others_of seps others ->
  exists r, compile N.eqb space false (separators_to_re special space seps separate keep) = Some (r, []) /\
    (forall s, exists w t, re_match r s = Some (if keep then [(1, w)] else [], t) /\ s = w ++ t /\
       (sep_at others s 0 -> one_split separate others w t) /\ (~ sep_at others s 0 -> w = [])) /\
    (forall n s, split_any r n s = split_any (separators_re seps separate) n s).
Proof.
  intros [E1 E2] S I O.
  assert (H3 : forall c, space c = true -> meta c = false).
  { intros c H. destruct (meta c) eqn:M; auto. exfalso. exact (S c H (proj1 (meta_in c) M)). }
  destruct (compile_pattern special space (fun c H => E1 c (proj1 (meta_in c) H)) E2 H3 seps separate keep ltac:(intros ->; destruct I)) as (r & C & A).
  exists r. split; [exact C|]. pose proof (ne_same _ _ O) as SS. split.
  - intros s. rewrite (alike_match _ _ s A). destruct (any_match seps separate s I) as (g & w & t & R & Ew & W1 & W2). exists w, t.
    assert (Q1 : sep_at others s 0 -> one_split separate others w t).
    { intros Q. apply (sep_at_same _ _ _ _ (same_sym _ _ SS)) in Q. specialize (W1 Q). unfold one_split in *. destruct separate; [eapply longest_same|eapply run_same]; eauto. }
    assert (Q2 : ~ sep_at others s 0 -> w = []) by (intros Q; apply W2; intros Q'; apply Q; eapply sep_at_same; eauto).
    destruct keep; [|split; [|auto]].
    + split; [|auto]. pose proof (grp_ends 1 (separators_re seps separate) s) as E. rewrite R in E. cbn [option_map snd] in E.
      destruct (re_match (Grp 1 (separators_re seps separate)) s) as [[g' t']|] eqn:R'; [|discriminate E]. cbn in E. injection E as ->.
      apply grp_groups in R'; [|apply plain_separators]. rewrite R', Ew, app_length. replace (length w + length t - length t) with (length w) by lia. now rewrite firstn_app, Nat.sub_diag, firstn_all, app_nil_r.
    + rewrite R. f_equal. f_equal. eapply plain_groups; [apply plain_separators|exact R].
  - intros n s. apply tails_split. intros again x. rewrite (alike_tails _ _ A). destruct keep; [apply grp_tails|reflexivity].
Qed.
Print Assumptions C117_empty_separator.
(** the pattern for 'a' and the empty string *)
Example C117_empty_pattern : separators_to_re special_37 is_space [u ""; u "a"] false true = u "((?:a|)+)" /\
  option_map (fun p => split_any (fst p) None (u "baa")) (compile N.eqb is_space false (u "((?:a|)+)")) = Some ([([], []); (u "b", u "aa"); ([], [])], []) /\
  separators_to_re special_37 is_space [u ""] true true = u "()".
Proof. vm_compute. repeat split. Qed.
