(** str and bytes: lines and its modifiers, the functions that look for whitespace (C135). *)
From Verif Require Import KindSpec SplitModel SplitSpec SplitProof SplitProof2 SplitProof3 PyStrProof RegexProof PyBaseProof KindProof KindProof2 KindProof3 DelimModel LinesModel LinesProof ConstModel LinesProps.
From Coq Require Import Permutation.

Section Agree.
  Context (b b' : bool) (start_column tab_width : Z).
  Lemma white_ok c : okc c = true -> white b c = white b' c.
  Proof. intros H. apply white_agree_b. now apply space_okb_iff, okc_space. Qed.
  Definition same_spaces (s : str) : Prop := Forall (fun c => space_okb c = true) s.
  Lemma lstrip_same s : same_spaces s -> lstrip b s = lstrip b' s.
  Proof. induction 1 as [|c s Hc F IH]; cbn; auto. rewrite (white_agree_b b b') by now apply space_okb_iff. now rewrite IH. Qed.
  Lemma rstrip_same s : same_spaces s -> rstrip b s = rstrip b' s.
  Proof. intros F. unfold rstrip. f_equal. apply lstrip_same. now apply Forall_rev. Qed.
  Lemma lstrip_agree s : oks s -> lstrip b s = lstrip b' s. Proof. intros. now apply lstrip_same, oks_space. Qed.
  Lemma rstrip_agree s : oks s -> rstrip b s = rstrip b' s. Proof. intros. now apply rstrip_same, oks_space. Qed.
  Lemma lstrip_ok x s : oks s -> oks (lstrip x s).
  Proof. intros F. destruct (lstrip_spec x s) as (ws & E & _). rewrite E in F. now apply oks_app in F. Qed.
  Lemma rstrip_ok x s : oks s -> oks (rstrip x s).
  Proof. intros F. destruct (rstrip_spec x s) as (ws & E & _). rewrite E in F. now apply oks_app in F. Qed.
  Lemma slice_from_ok s i : oks s -> oks (slice_from s i).
  Proof. intros. unfold slice_from. destruct (i <? 0)%Z; now apply oks_skipn. Qed.
  Lemma slice_to_ok s i : oks s -> oks (slice_to s i).
  Proof. intros. unfold slice_to. destruct (i <? 0)%Z; now apply oks_firstn. Qed.

  Definition okl (p : pair) : Prop := oks (snd p).
  Lemma clip_all_okl i q : clip_all i = Ok q -> okl q.
  Proof. intros E. apply clip_all_end in E as (_ & _ & _ & E & _). unfold okl. rewrite E. constructor. Qed.
  Lemma clip_leading_okl i line a q : oks line -> clip_leading tab_width i line a = Ok q -> okl q.
  Proof. intros F. unfold clip_leading. destruct (is_nil _); [apply clip_all_okl|]. intros [= <-]. unfold okl. cbn. now apply slice_from_ok. Qed.
  Lemma clip_trailing_okl i line a q : oks line -> clip_trailing i line a = Ok q -> okl q.
  Proof.
    intros F. unfold clip_trailing. destruct (is_nil _); [apply clip_all_okl|]. intros [= <-]. unfold okl. cbn. destruct (_ =? 0)%Z; [constructor|now apply slice_to_ok].
  Qed.
  (** what an iterator yields: the same, of such lines *)
  Definition alike_pair (x y : result (option pair)) : Prop := x = y /\ forall q, y = Ok (Some q) -> okl q.
  Lemma for_each_alike f g l up : (forall p, okl p -> alike_pair (f p) (g p)) -> Forall okl l -> for_each f l up = for_each g l up /\ Forall okl (fst (for_each g l up)).
  Proof.
    intros H. induction 1 as [|p l Hp F [IH1 IH2]]; cbn; [auto|]. destruct (H p Hp) as [E O]. rewrite E. destruct (g p) as [[q|]|e]; cbn; auto. rewrite IH1. split; auto.
  Qed.
  Lemma multistrip_ok s seps l r t : oks s -> multistrip s seps l r = Ok t -> oks t.
  Proof.
    intros F E. pose proof (multistrip_cases s seps l r) as H. rewrite E in H. destruct H as (x & y & -> & _). apply oks_app in F as [_ F]. now apply oks_app in F.
  Qed.
  Lemma rstrip_line_alike o p : okl p -> alike_pair (rstrip_line b o p) (rstrip_line b' o p).
  Proof.
    destruct p as [i line]. intros F. unfold okl in F. cbn in F. unfold rstrip_line, alike_pair. destruct o as [seps|].
    - split; auto. intros q. destruct (multistrip line seps false true) as [r|e] eqn:E; [|discriminate]. apply multistrip_ok in E; auto. destruct (str_eqb r line); [now intros [= <-]|].
      destruct (clip_trailing i line _); [|discriminate]. cbn. now intros [= <-].
    - rewrite (rstrip_agree line) by auto. split; auto. intros q. destruct (str_eqb _ line); [now intros [= <-]|]. destruct (clip_trailing i line _) as [q'|] eqn:E; [|discriminate]. cbn. intros [= <-]. eapply clip_trailing_okl; eauto.
  Qed.
  Lemma clip_both_okl i line x y q : oks line -> clip_both tab_width i line x y = Ok (Some q) -> okl q.
  Proof.
    intros F. unfold clip_both.
    assert (G : forall i line, oks line -> rmap Some (if is_nil y then Ok (i, line) else clip_trailing i line (ByStr y)) = Ok (Some q) -> okl q).
    { intros i0 l0 F0. destruct (is_nil y); [now intros [= <-]|]. destruct (clip_trailing i0 l0 _) as [q'|] eqn:E; [|discriminate]. cbn. intros [= <-]. eapply clip_trailing_okl; eauto. }
    destruct (is_nil x); [now apply G|]. destruct (clip_leading tab_width i line _) as [[i0 l0]|] eqn:E; [|discriminate]. apply clip_leading_okl in E; auto. now apply G.
  Qed.
  Lemma strip_line_alike o p : okl p -> alike_pair (strip_line b tab_width o p) (strip_line b' tab_width o p).
  Proof.
    destruct p as [i line]. intros F. unfold okl in F. cbn in F. unfold strip_line, alike_pair. destruct (is_nil line); [split; auto; now intros q [= <-]|]. destruct o as [seps|].
    - split; auto. intros q. destruct (multistrip line seps true true) as [r|e]; [|discriminate]. destruct (if is_nil r then _ else _) as [x y]. now apply clip_both_okl.
    - rewrite (lstrip_agree line) by auto. rewrite (rstrip_agree (lstrip b' line)) by now apply lstrip_ok. split; auto. intros q. destruct (is_nil (lstrip b' line)); now apply clip_both_okl.
  Qed.
  Lemma keep_if_alike f g p : okl p -> f (snd p) = g (snd p) -> alike_pair (keep_if f p) (keep_if g p).
  Proof. intros F E. unfold keep_if. rewrite E. split; auto. intros q. destruct (g (snd p)); [now intros [= <-]|discriminate]. Qed.
End Agree.

Lemma forallb_white_agree b b' s : same_spaces s -> forallb (white b) s = forallb (white b') s.
Proof. induction 1 as [|c s Hc F IH]; cbn; auto. rewrite (white_agree_b b b') by now apply space_okb_iff. now rewrite IH. Qed.
Lemma comment_some b b' ms line x : same_spaces line -> re_match (Seq (Star (Chr (white b))) (separators_re ms false)) line = Some x ->
  exists y, re_match (Seq (Star (Chr (white b'))) (separators_re ms false)) line = Some y.
Proof.
  intros F E. destruct (proj1 (re_match_rel _ _) (ex_intro _ x E)) as (s' & g' & R). apply re_match_rel. apply rel_seq in R as (s1 & g1 & R1 & R2). apply rel_star_class in R1 as (ws & -> & W & ->).
  exists s', g'. econstructor; [|exact R2]. apply rel_star_chr. rewrite <- W. symmetry. apply forallb_white_agree. apply Forall_app in F. tauto.
Qed.
Lemma comment_agree b b' ms line : same_spaces line -> comment_line b ms line = comment_line b' ms line.
Proof.
  intros F. unfold comment_line. destruct ms as [|m [|m' ms]]; [|now rewrite (lstrip_same b b')|].
  all: match goal with |- match ?a with _ => _ end = match ?c with _ => _ end => destruct a eqn:A, c eqn:C; auto end.
  all: first [apply (comment_some b b') in A as (y & A); auto; congruence|apply (comment_some b' b) in C as (y & C); auto; congruence].
Qed.

Section Modifiers.
  Context (b b' : bool) (start_column tab_width : Z).
  Definition alike_gen (x y : generated pair) : Prop := x = y /\ Forall okl (fst y).
  Lemma yield_alike q x y : okl q -> alike_gen x y -> alike_gen (yield_ q x) (yield_ q y).
  Proof. intros O [-> F]. split; auto. cbn. auto. Qed.
  Lemma comments_alike ms quotes escape multi l up : Forall okl l -> forall state,
    alike_gen (comments_loop b ms quotes escape multi state l up) (comments_loop b' ms quotes escape multi state l up).
  Proof.
    induction 1 as [|[i line] l Hp F IH]; intros state; cbn [comments_loop]; [split; auto; constructor|]. unfold okl in Hp. cbn in Hp.
    rewrite (split_quoted_agree b b') by auto. assert (Z : forall e, alike_gen ([], e) ([], e)) by (intros; split; auto; constructor).
    destruct (if is_nil quotes && is_nil multi then _ else _) as [[segs [e|]]|e]; auto; destruct (find_comment ms line segs state [] []) as [s|st lq tq|]; auto.
    - destruct (clip_trailing i line (ByStr s)) as [q|] eqn:E; auto. apply yield_alike; auto. eapply clip_trailing_okl; eauto.
    - destruct (negb (is_nil lq) && is_nil tq); [destruct (str_in lq multi); auto|]; apply yield_alike; auto.
  Qed.
  Lemma set_indent_okl n l : Forall okl l -> Forall okl (map (set_indent n) l).
  Proof. intros F. apply Forall_map. exact F. Qed.
  Lemma indent_alike l up : Forall okl l -> forall leadings indent blanks, Forall okl blanks ->
    alike_gen (indent_loop b start_column tab_width leadings indent blanks l up) (indent_loop b' start_column tab_width leadings indent blanks l up).
  Proof.
    assert (Z : forall e, alike_gen ([], e) ([], e)) by (intros; split; auto; constructor).
    induction 1 as [|[i line] l Hp F IH]; intros leadings indent blanks B; cbn [indent_loop].
    - destruct up; auto. split; auto. now apply set_indent_okl.
    - unfold okl in Hp. cbn in Hp. rewrite (lstrip_agree b b') by auto. destruct (is_nil (lstrip b' line)).
      + destruct (clip_trailing i line _) as [q|] eqn:E; auto. apply IH. apply Forall_app. split; auto. constructor; auto. eapply clip_trailing_okl; eauto.
      + destruct (clip_leading tab_width i line _) as [[i' line']|] eqn:E; auto. apply clip_leading_okl in E; auto.
        destruct (indent_step start_column (i_column i') (i_leading i') leadings indent) as [[l' n']|]; auto. destruct (IH l' n' [] (Forall_nil _)) as [-> O].
        destruct (indent_loop b' _ _ _ _ _ _ _) as [y e]. split; auto. cbn. apply Forall_app. split; auto. apply set_indent_okl, Forall_app. auto.
  Qed.
  Lemma expand_ok s : oks s -> forall pos, oks (expandtabs_aux tab_width pos s).
  Proof.
    induction 1 as [|c s Hc F IH]; intros pos; cbn [expandtabs_aux]; [constructor|]. destruct (c =? 9)%N.
    - destruct (0 <? tab_width)%Z; auto. apply oks_app. split; auto. apply Forall_forall. intros x I'. apply repeat_spec in I'. now subst x.
    - constructor; auto. apply IH.
  Qed.
  Definition alike_result (x y : result (generated pair)) : Prop := x = y /\ forall g, y = Ok g -> Forall okl (fst g).
  Lemma sort_forall {A} (P : A -> Prop) (lt : A -> A -> bool) l : Forall P l -> Forall P (sort lt l).
  Proof. intros F. apply Forall_forall. intros x I'. apply (Permutation_in x (sort_perm lt l)) in I'. rewrite Forall_forall in F. auto. Qed.
  Lemma modify_alike m li : Forall okl (fst li) -> alike_result (modify b start_column tab_width m li) (modify b' start_column tab_width m li).
  Proof.
    destruct li as [l up]. cbn [fst]. intros F. unfold alike_result.
    assert (FE : forall f g, (forall p, okl p -> alike_pair (f p) (g p)) -> Ok (for_each f l up) = Ok (for_each g l up) /\ forall x, Ok (for_each g l up) = Ok x -> Forall okl (fst x)).
    { intros f g H. destruct (for_each_alike f g l up H F) as [-> O]. split; auto. now intros x [= <-]. }
    assert (GE : forall x y : generated pair, alike_gen x y -> Ok x = Ok y /\ forall g, Ok y = Ok g -> Forall okl (fst g)) by (intros x y [-> O]; split; auto; now intros g [= <-]).
    destruct m; cbn [modify].
    - apply FE. intros. now apply rstrip_line_alike.
    - apply FE. intros. now apply strip_line_alike.
    - destruct (is_nil markers); [split; auto; discriminate|]. apply FE. intros. apply keep_if_alike; auto. f_equal. apply comment_agree. now apply oks_space.
    - apply FE. intros. now apply keep_if_alike.
    - apply FE. intros. now apply keep_if_alike.
    - split; auto. unfold lines_sort. destruct up; [intros g [= <-]; constructor|]. intros g [= <-]. cbn. destruct reverse; [unfold sort_rev; try apply Forall_rev; apply sort_forall; try apply Forall_rev; auto|now apply sort_forall].
    - destruct (is_nil markers); [split; auto; discriminate|]. rewrite (split_quoted_agree b b') by (repeat constructor). destruct (if is_nil quotes && is_nil multiline_quotes then _ else _); [|split; auto; discriminate].
      apply GE. now apply comments_alike.
    - apply FE. intros p Hp. split; auto. intros q [= <-]. unfold okl. cbn. now apply expand_ok.
    - apply GE. apply indent_alike; auto.
    - apply FE. intros. now apply keep_if_alike.
  Qed.
  Lemma pipeline_alike ms : forall li, Forall okl (fst li) -> pipeline b start_column tab_width ms li = pipeline b' start_column tab_width ms li.
  Proof.
    induction ms as [|m ms IH]; intros li F; cbn; auto. destruct (modify_alike m li F) as [-> O]. destruct (modify b' _ _ m li) as [g|]; auto.
  Qed.
  Definition texts_of (s : source) : list str := match s with Text s _ => [s] | Strings l => l | Pairs l => map fst l end.
  Lemma number_ok l : forall n, Forall (fun p : str * str => oks (fst p)) l -> Forall okl (number_lines start_column n l).
  Proof. induction l as [|p l IH]; intros n F; cbn; [constructor|]. inversion F; subst. constructor; auto. Qed.
  Definition seps_ok (s : source) : Prop := match s with Text _ (Some l) => nonempty l | _ => True end.
  Lemma linebreaks_of_agree : agree_on break_okb (linebreaks_of b) (linebreaks_of b').
  Proof. destruct b, b'; cbn; try apply agree_refl; [apply agree_sym|]; apply linebreaks_agree. Qed.
  Lemma linebreaks_nonempty x : nonempty (linebreaks_of x). Proof. destruct x; now apply nonempty_by. Qed.
  Lemma linebreaks_some x : linebreaks_of x <> []. Proof. now destruct x. Qed.
  Lemma lines_alike s n : Forall oks (texts_of s) -> seps_ok s ->
    lines b start_column s n = lines b' start_column s n /\ forall l, lines b' start_column s n = Ok l -> Forall okl l.
  Proof.
    intros F V. destruct s as [s o|l|l]; cbn [lines texts_of] in *.
    - inversion F as [|? ? Fs _]; subst.
      assert (G : forall x, x <> [] -> nonempty x -> forall l, match multisplit s (Some x) AsPairs (Some (-1)%Z) false true StripFalse with
          | Err e => Err e | Ok l => Ok (number_lines start_column n (flat_map (fun x => match x with Two a b => [(a, b)] | Str _ => [] end) l)) end = Ok l -> Forall okl l).
      { intros x Hx Nx l. destruct (multisplit s _ _ _ _ _ _) as [ps|] eqn:M; [|discriminate]. apply pieces_ok in M; auto. intros [= <-]. apply number_ok. apply Forall_flat_map.
        eapply Forall_impl; [|exact M]. intros [a|a w]; cbn; [constructor|]. intros [A _]. auto. }
      destruct o as [[|w o]|].
      + rewrite (multisplit_alike s (linebreaks_of b) (linebreaks_of b')) by (try apply linebreaks_some; try apply linebreaks_nonempty; (apply (agree_alike break_okb); [now apply oks_break|apply linebreaks_of_agree])).
        split; auto. apply G; [apply linebreaks_some|apply linebreaks_nonempty].
      + split; auto. apply G; [discriminate|exact V].
      + rewrite (multisplit_alike s (linebreaks_of b) (linebreaks_of b')) by (try apply linebreaks_some; try apply linebreaks_nonempty; (apply (agree_alike break_okb); [now apply oks_break|apply linebreaks_of_agree])).
        split; auto. apply G; [apply linebreaks_some|apply linebreaks_nonempty].
    - split; auto. intros x [= <-]. apply number_ok. apply Forall_map. exact F.
    - split; auto. intros x [= <-]. apply number_ok. now apply Forall_map.
  Qed.
  Lemma process_alike s n ms : Forall oks (texts_of s) -> seps_ok s -> process b start_column tab_width s n ms = process b' start_column tab_width s n ms.
  Proof.
    intros F V. unfold process. destruct (lines_alike s n F V) as [-> O]. destruct (lines b' start_column s n) as [l|]; auto. apply pipeline_alike. cbn. auto.
  Qed.
End Modifiers.
