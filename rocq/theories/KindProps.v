(** C135: the text functions treat str and bytes alike. *)
From Verif Require Import KindSpec SplitModel SplitSpec SplitProof SplitProof2 SplitProof3 PyStrProof RegexProof PyBaseProof KindProof KindProof2 KindProof3 KindProof4 DelimModel LinesModel LinesProof ConstModel TypedProps
  WordsModel TextCodeModel MergeModel GargModel TypedSpec SplitSpec SplitProps TypedModel.

Lemma all_space s : Forall ordinary_space s -> Forall (fun c => space_okb c = true) s.
Proof. apply Forall_impl. intros c. apply space_okb_iff. Qed.
Lemma all_break s : Forall ordinary_break s -> Forall (fun c => break_okb c = true) s.
Proof. apply Forall_impl. intros c. apply break_okb_iff. Qed.
Lemma all_ok s : Forall ordinary s -> oks s.
Proof. apply Forall_impl. intros c [A B]. unfold okc. apply andb_true_iff. now rewrite space_okb_iff, break_okb_iff. Qed.

(** Separators that do not occur in s make no difference: only which of the substrings of s are separators counts. *)
Theorem C135_only_separators_in_s s a b keep maxsplit reverse separate strip : a <> [] -> b <> [] -> ~ In [] a -> ~ In [] b ->
  (forall w, (exists x y, s = x ++ w ++ y) -> (In w a <-> In w b)) ->
  multisplit s (Some a) keep maxsplit reverse separate strip = multisplit s (Some b) keep maxsplit reverse separate strip.
Proof.
  intros A B Na Nb H. apply multisplit_alike; auto; apply Forall_forall; intros w I' ->; auto.
Qed.
Print Assumptions C135_only_separators_in_s.
Theorem C135_only_separators_in_s_strip s a b left right : a <> [] -> b <> [] -> ~ In [] a -> ~ In [] b ->
  (forall w, (exists x y, s = x ++ w ++ y) -> (In w a <-> In w b)) -> multistrip s a left right = multistrip s b left right.
Proof.
  intros A B Na Nb H. apply multistrip_alike; auto; apply Forall_forall; intros w I' ->; auto.
Qed.
Print Assumptions C135_only_separators_in_s_strip.

(** The same call with bytes in place of str (or str in place of bytes) gives the same result, with bytes in place of str. *)
Theorem C135_multistrip k cls v separators left right :
  multistrip_py (swap k) cls v (swap_obj separators) left right = rmap swap_obj (multistrip_py k cls v separators left right).
Proof.
  unfold multistrip_py. rewrite strip_separators_swap. destruct (strip_separators k separators) as [seps|e]; auto. cbn [rbind]. apply strip_with_swap.
Qed.
Print Assumptions C135_multistrip.
Lemma split_default k v : Forall ordinary_space v -> exists a b, split_separators k ONone = Ok a /\ split_separators (swap k) ONone = Ok b /\
  a <> [] /\ b <> [] /\ nonempty a /\ nonempty b /\ alike_in v a b.
Proof.
  intros F. pose proof (agree_alike space_okb _ _ v (all_space v F) whitespace_agree) as H.
  assert (W : nonempty str_whitespace) by now apply nonempty_by. assert (B : nonempty bytes_whitespace) by (apply nonempty_by; vm_compute; reflexivity).
  assert (bytes_whitespace <> []) by (vm_compute; discriminate).
  destruct k; [exists str_whitespace, bytes_whitespace|exists bytes_whitespace, str_whitespace]; refine (conj eq_refl (conj eq_refl (conj _ (conj _ (conj _ (conj _ _)))))); try assumption; try discriminate.
  now apply alike_sym.
Qed.
Theorem C135_multisplit k cls v separators keep maxsplit reverse separate strip : (separators = ONone -> Forall ordinary_space v) ->
  multisplit_py (swap k) cls v (swap_obj separators) keep maxsplit reverse separate strip =
  rmap (map swap_item) (multisplit_py k cls v separators keep maxsplit reverse separate strip).
Proof.
  intros H. rewrite !multisplit_with.
  assert (D : separators = ONone \/ separators <> ONone) by (destruct separators; auto; right; discriminate). destruct D as [->|N].
  - destruct (split_default k v (H eq_refl)) as (a & b & Ea & Eb & A & B & Na & Nb & S). cbn [swap_obj]. rewrite Ea, Eb. cbn [rbind]. rewrite split_with_swap. now rewrite (split_with_alike k cls v a b).
  - rewrite split_separators_swap by auto. destruct (split_separators k separators) as [seps|e]; auto. cbn [rbind]. apply split_with_swap.
Qed.
Print Assumptions C135_multisplit.
Lemma objs_swap l : objs (map swap_item l) = map swap_obj (objs l).
Proof. unfold objs. induction l as [|[o|a b] l IH]; cbn; auto; now rewrite IH. Qed.
Theorem C135_multipartition k cls v separators count reverse separate : (separators = ONone -> Forall ordinary_space v) ->
  multipartition_py (swap k) cls v (swap_obj separators) count reverse separate = rmap (map swap_obj) (multipartition_py k cls v separators count reverse separate).
Proof.
  intros H. unfold multipartition_py. destruct (count <? 0)%Z; auto. rewrite C135_multisplit by auto. destruct (multisplit_py k cls v separators _ _ _ _ _) as [l|e]; auto. cbn [rbind rmap].
  rewrite objs_swap, map_length. assert (R : forall n, repeat (OText (swap k) None []) n = map swap_obj (repeat (OText k None []) n)) by (induction n; cbn; congruence).
  destruct reverse; rewrite map_app, R; reflexivity.
Qed.
Print Assumptions C135_multipartition.

(** normalize_whitespace: the same text (the class can differ, if the replacement is an instance of a subclass) *)
Lemma normalize_separators_swap k o : match normalize_separators (swap k) (swap_obj o) with Ok _ => normalize_separators (swap k) (swap_obj o) = normalize_separators k o
  | Err e => normalize_separators k o = Err e end.
Proof.
  destruct o as [k' c v| |l|l|b]; cbn; auto.
  - rewrite kind_eqb_swap. destruct (kind_eqb k k') eqn:E; auto. destruct k, k'; try discriminate; destruct v; cbn; auto.
  - rewrite check_each_swap. destruct (check_each k l) as [[|w m]|]; cbn; auto.
  - rewrite check_each_swap. destruct (check_each k l) as [[|w m]|]; cbn; auto.
Qed.
Lemma spaces_of_agree k c : ordinary_space c -> space_of (swap k) c = space_of k c.
Proof.
  intros H. assert (E : forall k, space_of k c = white (match k with KStr => false | KBytes => true end) c) by (intros []; cbn; auto; apply orb_comm).
  rewrite !E. now apply white_agree_b.
Qed.
Lemma runs_agree p q r b v : (forall c, In c v -> p c = q c) -> replace_runs p r b v = replace_runs q r b v.
Proof.
  revert b. induction v as [|c v IH]; intros b H; cbn; auto. rewrite (H c) by (left; auto). assert (forall c, In c v -> p c = q c) as H' by (intros; apply H; now right). destruct (q c); now rewrite !IH.
Qed.
Definition same_text (k : kind) (x y : result obj) : Prop :=
  match x, y with Ok (OText a _ s), Ok (OText b _ t) => a = k /\ b = swap k /\ s = t | Err e, Err e' => e = e' | _, _ => False end.
Theorem C135_normalize_whitespace k v separators replacement : (separators = ONone -> Forall ordinary_space v) ->
  same_text k (normalize_whitespace_py k v separators replacement) (normalize_whitespace_py (swap k) v (swap_obj separators) (swap_obj replacement)).
Proof.
  intros H. destruct (match separators with ONone => true | _ => false end) eqn:D.
  - assert (separators = ONone) as -> by (destruct separators; auto; discriminate). clear D. specialize (H eq_refl). cbn [swap_obj].
    assert (R : (exists r, replacement_is k replacement r /\ replacement_is (swap k) (swap_obj replacement) r) \/ (foreign k replacement /\ replacement <> ONone)).
    { destruct replacement as [k' c r| | | |]; try (right; split; [intros ? ?|]; discriminate).
      - destruct (kind_eqb k k') eqn:E; [left|right].
        + assert (k' = k) as -> by (now destruct k, k'). exists r. split; right; exists c; reflexivity.
        + split; [|discriminate]. intros c' v' [= -> _ _]. now destruct k.
      - left. exists [32%N]. split; left; auto. }
    destruct R as [(r & R1 & R2)|[F N]].
    + destruct (C105_normalize k v replacement r R1) as (c & ->). destruct (C105_normalize (swap k) v (swap_obj replacement) r R2) as (c' & ->). cbn. split; auto. split; auto.
      symmetry. apply runs_agree. intros x I'. apply spaces_of_agree. rewrite Forall_forall in H. auto.
    + unfold normalize_whitespace_py. cbn [normalize_separators rbind]. destruct replacement as [k' c r| | | |]; cbn; auto; try congruence. rewrite kind_eqb_swap. destruct (kind_eqb k k') eqn:E; [|reflexivity].
      exfalso. apply (F c r). now destruct k, k'.
  - unfold normalize_whitespace_py. pose proof (normalize_separators_swap k separators) as S.
    assert (NN : forall s, normalize_separators k separators = Ok s -> s <> None).
    { intros s E ->. destruct separators as [k' c w| |l|l|bb]; try discriminate; cbn in E.
      - destruct (kind_eqb k k'); [discriminate|]. destruct k'; cbn in E; destruct w; discriminate.
      - destruct (check_each k l) as [[|? ?]|]; discriminate.
      - destruct (check_each k l) as [[|? ?]|]; discriminate. }
    destruct (normalize_separators (swap k) (swap_obj separators)) as [s|e]; [|rewrite S; reflexivity]. symmetry in S. rewrite S. specialize (NN s S). cbn [rbind].
    assert (G : forall r s, s <> None -> same_text k (if is_nil v then Ok (OText k None []) else match s, k with Some seps, _ => rmap (fun l => OText k None (join r (strs l))) (multisplit v (Some seps) KeepFalse (Some (-1)%Z) false false StripFalse) | None, _ => Err TypeError end)
       (if is_nil v then Ok (OText (swap k) None []) else match s, swap k with Some seps, _ => rmap (fun l => OText (swap k) None (join r (strs l))) (multisplit v (Some seps) KeepFalse (Some (-1)%Z) false false StripFalse) | None, _ => Err TypeError end)).
    { intros r [seps|]; [|congruence]. intros _. destruct (is_nil v); [cbn; auto|]. destruct (multisplit v _ _ _ _ _ _); cbn; auto. }
    destruct replacement as [k' c r| | | |]; cbn [swap_obj rbind same_text]; auto.
    + rewrite kind_eqb_swap. destruct (kind_eqb k k'); [|reflexivity]. cbn [rbind]. destruct s as [seps|]; [|congruence]. now apply (G r (Some seps)).
    + destruct s as [seps|]; [|congruence]. now apply (G [32%N] (Some seps)).
Qed.
Print Assumptions C135_normalize_whitespace.

(** lines() and any modifiers: the same lines and information, or the same exception. *)
Theorem C135_lines start_column tab_width source line_number modifiers :
  Forall (Forall ordinary) (match source with Text s _ => [s] | Strings l => l | Pairs l => map fst l end) ->
  (forall s l, source = Text s (Some l) -> ~ In [] l) ->
  process true start_column tab_width source line_number modifiers = process false start_column tab_width source line_number modifiers.
Proof.
  intros F V. apply process_alike.
  - unfold texts_of. eapply Forall_impl; [|exact F]. intros s. apply all_ok.
  - destruct source as [s [l|]|l|l]; cbn; auto. apply Forall_forall. intros w I' ->. now apply (V s l).
Qed.
Print Assumptions C135_lines.
Theorem C135_split_quoted_strings s quotes escape multiline_quotes state : Forall ordinary s ->
  split_quoted_strings true s quotes escape multiline_quotes state = split_quoted_strings false s quotes escape multiline_quotes state.
Proof. intros F. now apply split_quoted_agree, all_ok. Qed.
Print Assumptions C135_split_quoted_strings.
Theorem C135_split_delimiters s table state : Forall ordinary_break s ->
  (forall o d, In (o, d) (match table with None => default_delimiters | Some t => t end) -> o <> [] /\ d_close d <> [] /\ (d_quoting d = true -> d_escape d <> [])) ->
  split_delimiters true s table state = split_delimiters false s table state.
Proof.
  intros F H. apply split_delimiters_agree; [|now apply all_break]. unfold delimiter_tokens, nonempty. change (match table with None => default_delimiters | Some t => t end) with (table_of table) in H.
  apply Forall_app. split; [|apply Forall_app; split]; apply Forall_forall; intros w I'; apply in_map_iff in I' as ([o d] & <- & I'); [|..|apply filter_In in I' as [I' Q]]; destruct (H o d I') as (A & B & C); cbn; auto.
Qed.
Print Assumptions C135_split_delimiters.

(** The functions that look for whitespace *)
Theorem C135_wrap_words words margin two_spaces : Forall (Forall ordinary_space) words -> wrap_words true words margin two_spaces = wrap_words false words margin two_spaces.
Proof.
  intros F. assert (G : forall words, Forall (Forall ordinary_space) words -> forall t col last, wrap_loop true margin t words col last = wrap_loop false margin t words col last).
  { clear. induction 1 as [|w ws Hw F IH]; intros t col last; cbn [wrap_loop]; auto. assert (isspace true w = isspace false w) as -> by (unfold isspace; f_equal; now apply forallb_white_agree, all_space).
    destruct (isspace false w); [now rewrite IH|]. destruct (if _ && _ then _ else _) as [sp n]. destruct (if (_ <? _)%Z then _ else _) as [pre c]. now rewrite IH. }
  unfold wrap_words. destruct words; auto. f_equal. f_equal. now apply G.
Qed.
Print Assumptions C135_wrap_words.
Theorem C135_split_text_with_code s tab_width allow_code code_indent convert : Forall ordinary_space s ->
  split_text_with_code true tab_width allow_code code_indent convert s = split_text_with_code false tab_width allow_code code_indent convert s.
Proof.
  intros F. unfold split_text_with_code. f_equal. generalize (([], [], Cws [] [] None 0 Paragraph_start) : writer). induction F as [|c s Hc F IH]; intros w; cbn [write_all]; auto.
  assert (write true tab_width allow_code code_indent convert w c = write false tab_width allow_code code_indent convert w c) as -> by (unfold write; destruct w as [[? ?] ?]; now rewrite (white_agree_b true false c Hc)).
  destruct (write false _ _ _ _ w c); cbn; auto.
Qed.
Print Assumptions C135_split_text_with_code.

(** gently_title, for any upper that is the same for str and bytes *)
Lemma marks_arg_swap k o : match marks_arg (swap k) (swap_obj o) with Ok m => marks_arg k o = Ok m | Err e => marks_arg k o = Err e end.
Proof.
  assert (CE : forall k (v : str), check_each k (map (fun c => OText k None [c]) v) = Ok (chars v)).
  { intros k0 v. induction v as [|c v IH]; cbn; auto. rewrite kind_eqb_refl. cbn. now rewrite IH. }
  destruct o as [k' c v| |l|l|b]; cbn [swap_obj marks_arg]; auto.
  - unfold marks_arg. destruct (kind_eqb k k') eqn:E.
    + assert (k' = k) as -> by (now destruct k, k').
      assert (MI : forall k c, marks_iterate k (OText k c v) = Ok (map (fun x => OText k None [x]) v)) by (intros [] ?; reflexivity). rewrite !MI. cbn [rbind]. rewrite !CE. cbn. now destruct (is_nil v).
    + destruct k, k'; try discriminate; destruct v; reflexivity.
  - assert (forall k o, (forall k c v, o <> OText k c v) -> marks_iterate k o = iterate o) as MI by (intros [] [[] ? ?| | | |] H; try reflexivity; exfalso; eapply H; eauto).
    unfold marks_arg. rewrite !MI by discriminate. cbn. rewrite check_each_swap. destruct (check_each k l); cbn; auto. rewrite is_nil_map. now destruct (is_nil l).
  - assert (forall k o, (forall k c v, o <> OText k c v) -> marks_iterate k o = iterate o) as MI by (intros [] [[] ? ?| | | |] H; try reflexivity; exfalso; eapply H; eauto).
    unfold marks_arg. rewrite !MI by discriminate. cbn. rewrite check_each_swap. destruct (check_each k l); cbn; auto.
  - destruct k; reflexivity.
Qed.
Lemma marks_agree b b' m x (d : bool -> list str) : agree_on space_okb (d b) (d b') -> space_okb x = true -> marks_set (d b) m x = marks_set (d b') m x.
Proof. intros H O. destruct m; cbn; auto. change existsb with (@existsb str). fold (str_in [x] (d b)) (str_in [x] (d b')). apply (agree_in space_okb); auto. Qed.
Lemma gentle_agree b b' upper p q p' q' s : Forall ordinary_space s -> (forall c, ordinary_space c -> p c = p' c /\ q c = q' c) -> forall st,
  gentle_loop b upper p q st s = gentle_loop b' upper p' q' st s.
Proof.
  intros F H. induction F as [|c s Hc F IH]; intros st; cbn [gentle_loop]; auto. destruct (H c Hc) as [Hp Hq].
  assert (gentle_step b upper p q st c = gentle_step b' upper p' q' st c) as -> by (unfold gentle_step; rewrite Hp, Hq, (white_agree_b b b' c Hc); reflexivity).
  destruct (gentle_step b' upper p' q' st c) as [st' out]. now rewrite IH.
Qed.
Theorem C135_gently_title upper k cls s apostrophes double_quotes : Forall ordinary_space s ->
  gently_title_py upper (swap k) cls s (swap_obj apostrophes) (swap_obj double_quotes) = rmap swap_obj (gently_title_py upper k cls s apostrophes double_quotes).
Proof.
  intros F. unfold gently_title_py. cbv zeta. pose proof (marks_arg_swap k apostrophes) as A. pose proof (marks_arg_swap k double_quotes) as D.
  destruct (marks_arg (swap k) (swap_obj apostrophes)) as [a|e]; rewrite A; [|reflexivity]. cbn [rbind].
  destruct (marks_arg (swap k) (swap_obj double_quotes)) as [d|e]; rewrite D; [|reflexivity]. cbn [rbind rmap swap_obj]. f_equal. f_equal. apply gentle_agree; auto.
  assert (M : agree_on space_okb (default_apostrophes false) (default_apostrophes true)) by (apply agree_by; vm_compute; reflexivity).
  assert (M' : agree_on space_okb (default_double_quotes false) (default_double_quotes true)) by (apply agree_by; vm_compute; reflexivity).
  intros c Hc. apply space_okb_iff in Hc. destruct k; cbn [swap]; split; apply marks_agree; auto; now apply agree_sym.
Qed.
Print Assumptions C135_gently_title.

(** merge_columns *)
Lemma same_spaces_app a b : same_spaces (a ++ b) <-> same_spaces a /\ same_spaces b. Proof. apply Forall_app. Qed.
Lemma join_spaces sep l : same_spaces sep -> Forall same_spaces l -> same_spaces (join sep l).
Proof.
  intros S. induction 1 as [|x l Hx F IH]; cbn; [constructor|]. destruct l; auto. apply same_spaces_app. split; auto. apply same_spaces_app. auto.
Qed.
Lemma rstrip_spaces b s : same_spaces s -> same_spaces (rstrip b s).
Proof. intros F. destruct (rstrip_spec b s) as (ws & E & _). rewrite E in F. now apply same_spaces_app in F. Qed.
Lemma split1_spaces p s : same_spaces s -> Forall same_spaces (split1 p s).
Proof.
  induction 1 as [|c s Hc F IH]; cbn; [repeat constructor|]. destruct (p c); [constructor; [constructor|auto]|].
  destruct (split1 p s) as [|x l]; [repeat constructor; auto|]. inversion IH; subst. constructor; auto. constructor; auto.
Qed.
Lemma ljust_spaces w s : same_spaces s -> same_spaces (ljust w s).
Proof. intros F. apply same_spaces_app. split; auto. apply Forall_forall. intros x I'. apply repeat_spec in I'. now subst x. Qed.
Section Merging.
  Context (b b' : bool) (before after : nat).
  Lemma loop1_agree raises w lines : Forall same_spaces lines -> forall n o, loop1 b before after raises w n lines o = loop1 b' before after raises w n lines o.
  Proof. induction 1 as [|x lines Hx F IH]; intros n o; cbn [loop1]; auto. rewrite (rstrip_same b b') by auto. now rewrite !IH. Qed.
  Lemma loop2_spaces w lines : Forall same_spaces lines -> forall n cur pending io, Forall (fun p => same_spaces (fst p)) (loop2 w n lines cur pending io).
  Proof.
    induction 1 as [|x lines Hx F IH]; intros n cur pending io; cbn [loop2]; [constructor|].
    destruct (match cur with Some (_, e) => _ | None => _ end) as [io' [cur' pend']]. constructor; auto. cbn [fst]. destruct (match cur' with Some _ => _ | None => _ end); [assumption|now apply ljust_spaces].
  Qed.
  Definition col_ok (p : list (str * bool) * str) : Prop := Forall (fun p => same_spaces (fst p)) (fst p) /\ same_spaces (snd p).
  Lemma pad_agree strategy c : same_spaces (fst c) -> pad_column b before after strategy c = pad_column b' before after strategy c /\
    forall p, pad_column b' before after strategy c = Ok p -> col_ok p.
  Proof.
    destruct c as [s w]. cbn [fst]. intros F. unfold pad_column. rewrite (rstrip_same b b') by auto.
    assert (S : Forall same_spaces (split1 (fun c => (c =? newline_char)%N) (rstrip b' s))) by (apply split1_spaces; now apply rstrip_spaces). rewrite loop1_agree by auto. split; auto.
    intros p. destruct (loop1 b' _ _ _ _ _ _ _) as [o|]; [|discriminate]. cbn [rmap]. destruct (next_overflow _) as [cur pend]. intros [= <-]. split; cbn; [now apply loop2_spaces|].
    apply Forall_forall. intros x I'. apply repeat_spec in I'. now subst x.
  Qed.
  Lemma pads_agree strategy cs : Forall (fun c => same_spaces (fst c)) cs -> pad_columns b before after strategy cs = pad_columns b' before after strategy cs /\
    forall p, pad_columns b' before after strategy cs = Ok p -> Forall col_ok p.
  Proof.
    induction 1 as [|c cs Hc F [IH1 IH2]]; cbn [pad_columns]; [split; auto; intros p [= <-]; constructor|]. destruct (pad_agree strategy c Hc) as [-> O]. split; [now rewrite IH1|].
    intros p. destruct (pad_column b' _ _ _ c) as [q|]; [|discriminate]. cbn. destruct (pad_columns b' _ _ _ cs) as [l|]; [|discriminate]. cbn. intros [= <-]. auto.
  Qed.
  Lemma row_ok cs : Forall col_ok cs -> Forall same_spaces (fst (fst (row cs))) /\ Forall col_ok (snd (row cs)).
  Proof.
    induction 1 as [|x0 cs Hc F IH]; [cbn; auto|]. destruct IH as [IH1 IH2]. destruct x0 as [l e]. cbn [row]. destruct Hc as [Hl He]. cbn in Hl, He. destruct l as [|[x []] l].
    - destruct (row cs) as [[r ex] cs']. cbn in *. repeat split; auto. constructor; auto. now split.
    - cbn in *. inversion Hl; subst. repeat split; auto. constructor; auto. now split.
    - destruct (row cs) as [[r ex] cs']. cbn in *. inversion Hl; subst. repeat split; auto. constructor; auto. now split.
  Qed.
  Lemma rows_agree sep : same_spaces sep -> forall fuel cs, Forall col_ok cs -> rows b fuel sep cs = rows b' fuel sep cs /\ forall l, rows b' fuel sep cs = Some l -> Forall same_spaces l.
  Proof.
    intros S. induction fuel as [|fuel IH]; intros cs F; cbn [rows]; [split; auto; discriminate|]. destruct (row_ok cs F) as [R1 R2]. destruct (row cs) as [[r ex] cs']. cbn in R1, R2.
    destruct ex; [split; auto; intros l [= <-]; constructor|]. destruct (IH cs' R2) as [-> O]. rewrite (rstrip_same b b') by now apply join_spaces. split; auto.
    intros l. destruct (rows b' fuel sep cs') as [l'|]; [|discriminate]. cbn. intros [= <-]. constructor; auto. apply rstrip_spaces. now apply join_spaces.
  Qed.
End Merging.
Theorem C135_merge_columns ob oa columns column_separator strategy : Forall (fun c => Forall ordinary_space (fst c)) columns ->
  match column_separator with Some s => Forall ordinary_space s | None => True end ->
  merge_columns true ob oa columns column_separator strategy = merge_columns false ob oa columns column_separator strategy.
Proof.
  intros F S. unfold merge_columns.
  assert (Fc : Forall (fun c : str * nat => same_spaces (fst c)) columns) by (eapply Forall_impl; [|exact F]; intros c; apply all_space).
  assert (Ss : same_spaces (match column_separator with None => [32%N] | Some s => s end)) by (destruct column_separator; [now apply all_space|repeat constructor]).
  set (sep := match column_separator with None => [32%N] | Some s => s end) in *.
  assert (E : forall x y : result str, x = y -> match strategy, columns with INVALID, _ => Err AssertionError | _, [] => Err AssertionError | _, _ => x end =
    match strategy, columns with INVALID, _ => Err AssertionError | _, [] => Err AssertionError | _, _ => y end) by (now intros x y ->).
  cbv zeta. destruct strategy, columns as [|c columns]; auto.
  all: match goal with |- context [pad_columns true ?x ?y ?st ?cs] => destruct (pads_agree true false x y st cs Fc) as [-> O]; destruct (pad_columns false x y st cs) as [l|]; auto end.
  all: cbn [rbind]; match goal with |- context [rows true ?n ?sp ?q] => destruct (rows_agree true false sp Ss n q (O q eq_refl)) as [-> P]; destruct (rows false n sp q) as [r|] eqn:R; auto end.
  all: f_equal; apply rstrip_same; apply join_spaces; [repeat constructor|now apply P].
Qed.
Print Assumptions C135_merge_columns.

(** Where they differ: \v is a line break in a str only, \x1c is whitespace in a str only. *)
Theorem C135_lines_refuted : exists s : str, Forall ascii s /\ process true 1 8 (Text s None) 1 [] <> process false 1 8 (Text s None) 1 [].
Proof. exists [97; 11; 98]%N. split; [repeat constructor; reflexivity|]. vm_compute. discriminate. Qed.
Theorem C135_multisplit_refuted : exists s : str, Forall ascii s /\
  multisplit_py KBytes None s ONone KeepFalse None false false StripFalse <> rmap (map swap_item) (multisplit_py KStr None s ONone KeepFalse None false false StripFalse).
Proof. exists [97; 28; 98]%N. split; [repeat constructor; reflexivity|]. vm_compute. discriminate. Qed.
Theorem C135_normalize_whitespace_refuted : exists s : str, Forall ascii s /\ ~ same_text KStr (normalize_whitespace_py KStr s ONone ONone) (normalize_whitespace_py KBytes s ONone ONone).
Proof. exists [97; 28; 98]%N. split; [repeat constructor; reflexivity|]. vm_compute. intros (_ & _ & E). discriminate. Qed.
Theorem C135_wrap_words_refuted : exists words, Forall (Forall ascii) words /\ wrap_words true words 79 true <> wrap_words false words 79 true.
Proof. exists [u "a"; [28]%N]. split; [repeat constructor; reflexivity|]. vm_compute. discriminate. Qed.
Theorem C135_merge_columns_refuted : exists columns, Forall (fun c => Forall ascii (fst c)) columns /\ merge_columns true 0 0 columns None INTRUDE_ALL <> merge_columns false 0 0 columns None INTRUDE_ALL.
Proof. exists [([97; 28]%N, 5)]. split; [repeat constructor; reflexivity|]. vm_compute. discriminate. Qed.
Theorem C135_quoted_refuted : exists s : str, Forall ascii s /\ split_quoted_strings true s [u "'"] [] [] [] <> split_quoted_strings false s [u "'"] [] [] [].
Proof. exists [39; 97; 11; 98; 39]%N. split; [repeat constructor; reflexivity|]. vm_compute. discriminate. Qed.
Theorem C135_delimiters_refuted : exists s : str, Forall ascii s /\ split_delimiters true s None [] <> split_delimiters false s None [].
Proof. exists [39; 97; 11; 98; 39]%N. split; [repeat constructor; reflexivity|]. vm_compute. discriminate. Qed.
Print Assumptions C135_lines_refuted.

Example C135_example :
  Forall ordinary (u "  a (x' ')" ++ [10]%N ++ u " // b") /\
  multisplit_py KStr None (u "a b") ONone KeepFalse None false false StripFalse = Ok [OOne (OText KStr None (u "a")); OOne (OText KStr None (u "b"))] /\
  multisplit_py KBytes None (u "a b") ONone KeepFalse None false false StripFalse = Ok [OOne (OText KBytes None (u "a")); OOne (OText KBytes None (u "b"))] /\
  (exists l, process false 1 8 (Text (u "  a (x' ')" ++ [10]%N ++ u " // b") None) 1 [FilterCommentLines [u "//"; u "#"]; StripIndent] = Ok (l, None) /\ map snd l = [u "a (x' ')"]) /\
  split_delimiters true (u "(a)") None [] = Ok ([([], u "(", []); (u "a", [], u ")")], None) /\
  multisplit (u "a,b") (Some [u ","; u ";"]) KeepFalse None false false StripFalse = multisplit (u "a,b") (Some [u ","; u "x,"]) KeepFalse None false false StripFalse.
Proof.
  repeat split.
  - repeat constructor; unfold ascii; try (vm_compute; reflexivity); try (intros [A B]; vm_compute in A, B; congruence); cbn; intros H; repeat (destruct H as [H|H]; [discriminate|]); exact H.
  - eexists. split; [vm_compute; reflexivity|reflexivity].
Qed.
