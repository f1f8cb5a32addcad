(** str and bytes: split_quoted_strings, split_delimiters, the lines modifiers (C135). *)
From Verif Require Import KindSpec SplitModel SplitSpec SplitProof SplitProof2 SplitProof3 PyStrProof RegexProof PyBaseProof KindProof KindProof2 DelimModel LinesModel LinesProof ConstModel LinesProps.

(** the texts here *)
Definition okc (c : chr) : bool := space_okb c && break_okb c.
Definition oks (s : str) : Prop := Forall (fun c => okc c = true) s.
Lemma okc_space c : okc c = true -> space_okb c = true. Proof. unfold okc. now intros [? _]%andb_true_iff. Qed.
Lemma okc_break c : okc c = true -> break_okb c = true. Proof. unfold okc. now intros [_ ?]%andb_true_iff. Qed.
Lemma oks_space s : oks s -> Forall (fun c => space_okb c = true) s. Proof. apply Forall_impl. exact okc_space. Qed.
Lemma oks_break s : oks s -> Forall (fun c => break_okb c = true) s. Proof. apply Forall_impl. exact okc_break. Qed.
Lemma oks_app a b : oks (a ++ b) <-> oks a /\ oks b. Proof. apply Forall_app. Qed.
Lemma oks_concat l : Forall oks l -> oks (concat l).
Proof. induction 1; cbn; [constructor|]. apply oks_app. auto. Qed.
Lemma oks_skipn n s : oks s -> oks (skipn n s).
Proof. intros H. rewrite <- (firstn_skipn n s) in H. now apply oks_app in H. Qed.
Lemma oks_firstn n s : oks s -> oks (firstn n s).
Proof. intros H. rewrite <- (firstn_skipn n s) in H. now apply oks_app in H. Qed.

(** ---- line breaks in a text ---- *)
Lemma splitlines_aux_agree b b' s : Forall (fun c => break_okb c = true) s -> forall line, splitlines_aux b line s = splitlines_aux b' line s.
Proof.
  intros F. remember (length s) as n eqn:E. assert (L : length s <= n) by lia. clear E. revert s L F. induction n as [|n IH]; intros [|c s] L F line; cbn in *; auto; try lia.
  inversion F as [|? ? F1 F2]; subst. rewrite (linebreak_agree_b b b') by now apply break_okb_iff.
  destruct (is_linebreak b' c); [|apply IH; auto; lia]. destruct s as [|d s]; auto. inversion F2; subst. cbn in L.
  destruct ((c =? 13) && (d =? 10))%N; f_equal; apply IH; auto; cbn; lia.
Qed.
Lemma contains_newlines_agree b b' s : Forall (fun c => break_okb c = true) s -> contains_newlines b s = contains_newlines b' s.
Proof.
  intros F. unfold contains_newlines, splitlines. rewrite (splitlines_aux_agree b b' s F). f_equal. rewrite (splitlines_aux_agree b b'); auto.
  apply Forall_app. split; [|repeat constructor]. unfold last1. rewrite <- (firstn_skipn (length s - 1) s) in F. now apply Forall_app in F.
Qed.

(** ---- split_quoted_strings ---- *)
Definition okp (i : item) : Prop := match i with Two a b => oks a /\ oks b | Str a => oks a end.
Lemma in_piece a (l : list (str * str)) y x w : concat (alternating l y) = a -> In (x, w) l -> exists p q r, a = p ++ x ++ q ++ w ++ r.
Proof.
  intros E I'. apply in_split in I' as (l1 & l2 & ->). unfold alternating in E. rewrite flat_map_app in E. cbn in E. rewrite <- app_assoc in E. cbn in E. rewrite concat_app in E. cbn in E.
  exists (concat (flat_map (fun p => [fst p; snd p]) l1)), [], (concat (flat_map (fun p => [fst p; snd p]) l2 ++ [y])). cbn. now rewrite <- E.
Qed.
Lemma pieces_ok s seps ps : seps <> [] -> nonempty seps -> oks s -> multisplit s (Some seps) AsPairs (Some (-1)%Z) false true StripFalse = Ok ps -> Forall okp ps.
Proof.
  intros N NE F H. destruct (multisplit_spec s seps AsPairs (Some (-1)%Z) false true N NE) as (l & y & S & E). rewrite E in H. injection H as <-. cbn in S. apply splits_concat in S.
  assert (Y : oks y). { rewrite <- S in F. unfold alternating in F. rewrite concat_app in F. apply oks_app in F as [_ F]. cbn in F. now apply oks_app in F as [F _]. }
  unfold present. rewrite map_app. apply Forall_app. split; [|repeat constructor; auto]. apply Forall_forall. intros i I'. apply in_map_iff in I' as ([x w] & <- & I'). cbn.
  apply (in_piece s l y) in I' as (p & q & r & E2); auto. rewrite E2 in F. apply oks_app in F as [_ F]. apply oks_app in F as [F1 F]. apply oks_app in F as [_ F]. now apply oks_app in F as [F _].
Qed.
Lemma illegal_agree b b' multi quote text : oks text -> illegal_text b multi quote text = illegal_text b' multi quote text.
Proof. intros F. unfold illegal_text. now rewrite (contains_newlines_agree b b') by now apply oks_break. Qed.
Lemma add_literal_ok buffer a : Forall oks buffer -> oks a -> Forall oks (add_literal buffer a).
Proof. intros F A. unfold add_literal. destruct (is_nil a); auto. apply Forall_app. auto. Qed.
Definition okt (t : triple) : Prop := oks (snd (fst t)).
Lemma quoted_loop_agree b b' all multi ps : Forall okp ps -> forall buffer quote state, Forall oks buffer ->
  quoted_loop b all multi ps buffer quote state = quoted_loop b' all multi ps buffer quote state.
Proof.
  induction 1 as [|i ps Hi F IH]; intros buffer quote state B; cbn [quoted_loop].
  - destruct (is_nil buffer); auto. rewrite (illegal_agree b b') by now apply oks_concat. reflexivity.
  - destruct i as [a|a w]; [now apply IH|]. destruct Hi as [Ha Hw]. pose proof (add_literal_ok buffer a B Ha) as B'.
    assert (B2 : Forall oks (add_literal buffer a ++ [w])) by (apply Forall_app; auto).
    rewrite (illegal_agree b b') by now apply oks_concat.
    destruct (is_nil quote); [destruct (negb (str_in w all)); auto; destruct (is_nil (add_literal buffer a)); [auto|now rewrite IH]|].
    destruct (negb (str_eqb w quote)); auto. destruct (illegal_text b' multi quote _); auto. destruct (is_nil state); now rewrite IH.
Qed.
Lemma split_quoted_agree b b' s quotes escape multi state : oks s ->
  split_quoted_strings b s quotes escape multi state = split_quoted_strings b' s quotes escape multi state.
Proof.
  intros F. unfold split_quoted_strings. destruct (existsb is_nil quotes) eqn:E1; auto. destruct (existsb is_nil multi) eqn:E2; auto. destruct (is_nil (quotes ++ multi)) eqn:E3; auto.
  destruct (negb (is_nil state) && _); auto. destruct (has_repeats quotes); auto. destruct (has_repeats multi); auto. destruct (existsb _ quotes); auto.
  destruct (multisplit s _ _ _ _ _ _) as [ps|e] eqn:M; auto. f_equal. apply quoted_loop_agree; [|constructor].
  apply pieces_ok in M; auto.
  - unfold quote_separators. intros E. rewrite app_assoc in E. apply app_eq_nil in E as [E _]. rewrite E in E3. discriminate.
  - unfold quote_separators, nonempty. apply Forall_app. split; [now apply nonempty_by|]. apply Forall_app. split; [now apply nonempty_by|].
    destruct escape as [|c e]; [constructor|]. cbn [is_nil]. apply Forall_app. split; [apply Forall_forall; intros w I'; apply in_map_iff in I' as (q & <- & _); discriminate|repeat constructor; discriminate].
Qed.

(** ---- split_delimiters ---- *)
Lemma str_in_iff w l : str_in w l = true <-> In w l.
Proof. unfold str_in. rewrite existsb_exists. split; [intros (x & I' & E); apply str_eqb_eq in E; now subst x|intros I'; exists w; split; auto; apply str_eqb_refl]. Qed.
Lemma newlines_of_agree b b' table : agree_on break_okb (newlines_of b table) (newlines_of b' table).
Proof.
  unfold newlines_of. destruct (forallb _ table); [apply agree_refl|]. destruct b, b'; try apply agree_refl; [apply agree_sym|]; apply newlines_agree.
Qed.
Lemma all_tokens_agree b b' table : agree_on break_okb (all_tokens b table) (all_tokens b' table).
Proof. apply agree_app; [apply agree_refl|apply newlines_of_agree]. Qed.
Lemma agree_in ok a b w : agree_on ok a b -> Forall (fun c => ok c = true) w -> str_in w a = str_in w b.
Proof. intros H F. specialize (H w F). rewrite <- !str_in_iff in H. destruct (str_in w a), (str_in w b); intuition congruence. Qed.
Lemma lookup_agree b b' table state t : Forall (fun c => break_okb c = true) t -> lookup b table state t = lookup b' table state t.
Proof.
  intros F. unfold lookup. destruct state as [d|]; auto.
  now rewrite (agree_in _ _ _ t (all_tokens_agree b b' table) F), (agree_in _ _ _ t (newlines_of_agree b b' table) F).
Qed.
Lemma token_loop_truncate quoting characters l t old s : token_loop quoting characters l t old = Truncate s -> old <> Truncate s -> exists r, t = s ++ r.
Proof.
  revert old. induction l as [|x l IH]; cbn; intros old E N; [congruence|]. destruct (str_eqb t x); [now apply (IH old)|].
  destruct (starts_with x t) eqn:S; [injection E as ->; now apply starts_with_iff|]. destruct (quoting && _); eapply IH; eauto. discriminate.
Qed.
Lemma lookup_truncate b table state t s : lookup b table state t = Truncate s -> exists r, t = s ++ r.
Proof.
  unfold lookup. destruct state as [d|].
  - set (default := if d_quoting d then Flush else _).
    assert (D : forall s, default <> Truncate s) by (intros; unfold default; destruct (d_quoting d); [discriminate|]; destruct (str_in t (delimiter_tokens table)); discriminate).
    intros E.
    assert (E' : (if str_in t (all_tokens b table) then token_loop (d_quoting d) (d_close d ++ d_escape d) (d_close d :: (if is_nil (d_escape d) then [] else [d_escape d])) t default else default) = Truncate s).
    { cbv zeta in E. unfold push_or in E. revert E. destruct (negb (is_nil (d_escape d)) && str_eqb t (d_escape d)), (str_eqb t (d_close d)), (d_quoting d && negb (d_multiline d) && str_in t (newlines_of b table)), (d_quoting d), (get table t); auto; discriminate. }
    destruct (str_in t (all_tokens b table)); [eapply token_loop_truncate; eauto|now apply D in E'].
  - unfold push_or. destruct (get table t); [discriminate|]. destruct (str_in t (delimiter_tokens table)); discriminate.
Qed.
Definition same_breaks (s : str) : Prop := Forall (fun c => break_okb c = true) s.
Definition okbp (i : item) : Prop := match i with Two a b => same_breaks a /\ same_breaks b | Str a => same_breaks a end.
Lemma loop_agree b b' table ps : Forall okbp ps -> forall current stack buffer escaped consumed,
  delimiter_loop b table ps current stack buffer escaped consumed = delimiter_loop b' table ps current stack buffer escaped consumed.
Proof.
  induction 1 as [|i ps Hi F IH]; intros; cbn [delimiter_loop]; auto. destruct i as [a|a w]; [apply IH|]. destruct Hi as [Ha Hw].
  destruct (is_nil a && is_nil w); [apply IH|]. destruct (negb (is_nil escaped) && is_nil a); [destruct (length w =? 1); auto|]. destruct (is_nil w); auto.
  rewrite (lookup_agree b b') by auto.
  destruct (lookup b' table current w) as [o d| | | | | | |t] eqn:L; auto.
  - now rewrite IH.
  - destruct stack; auto. now rewrite IH.
  - pose proof (lookup_truncate _ _ _ _ _ L) as (r & E). rewrite (lookup_agree b b' table current t) by (unfold same_breaks in Hw; rewrite E in Hw; now apply Forall_app in Hw). reflexivity.
Qed.
Lemma pieces_breaks s seps ps : seps <> [] -> nonempty seps -> same_breaks s -> multisplit s (Some seps) AsPairs (Some (-1)%Z) false true StripFalse = Ok ps -> Forall okbp ps.
Proof.
  intros N NE F H. destruct (multisplit_spec s seps AsPairs (Some (-1)%Z) false true N NE) as (l & y & S & E). rewrite E in H. injection H as <-. cbn in S. apply splits_concat in S.
  assert (Y : same_breaks y). { rewrite <- S in F. unfold alternating in F. rewrite concat_app in F. apply Forall_app in F as [_ F]. cbn in F. now apply Forall_app in F as [F _]. }
  unfold present. rewrite map_app. apply Forall_app. split; [|repeat constructor; auto]. apply Forall_forall. intros i I'. apply in_map_iff in I' as ([x w] & <- & I'). cbn.
  apply (in_piece s l y) in I' as (p & q & r & E2); auto. unfold same_breaks in *. rewrite E2 in F. apply Forall_app in F as [_ F]. apply Forall_app in F as [F1 F]. apply Forall_app in F as [_ F]. now apply Forall_app in F as [F _].
Qed.
Lemma newlines_nonempty b table : nonempty (newlines_of b table).
Proof. unfold newlines_of. destruct (forallb _ table); [constructor|]. destruct b; now apply nonempty_by. Qed.
Lemma run_agree b b' table s : table <> [] -> nonempty (delimiter_tokens table) -> same_breaks s -> forall fuel current stack buffer escaped consumed,
  delimiter_run b table s fuel current stack buffer escaped consumed = delimiter_run b' table s fuel current stack buffer escaped consumed.
Proof.
  intros T N F. assert (NN : forall b, nonempty (all_tokens b table)) by (intros; apply Forall_app; split; [auto|apply newlines_nonempty]).
  assert (NT : forall b, all_tokens b table <> []) by (intros; unfold all_tokens, delimiter_tokens, openers; destruct table; [congruence|discriminate]).
  induction fuel as [|fuel IH]; intros; cbn [delimiter_run]; auto.
  assert (Fs : same_breaks (skipn consumed s)) by (unfold same_breaks in *; rewrite <- (firstn_skipn consumed s) in F; now apply Forall_app in F).
  rewrite (multisplit_alike _ (all_tokens b table) (all_tokens b' table)) by (auto; apply (agree_alike break_okb); auto; apply all_tokens_agree).
  destruct (multisplit _ _ _ _ _ _ _) as [ps|e] eqn:M; auto. apply pieces_breaks in M; auto. rewrite (loop_agree b b') by auto. destruct (delimiter_loop b' _ _ _ _ _ _ _) as [y r]. destruct r; auto. now rewrite IH.
Qed.
Lemma lookup_push b b' table state k o d : lookup b table state k = Push o d -> lookup b' table state k = Push o d.
Proof.
  unfold lookup. destruct state as [e|]; auto. cbv zeta.
  set (default := if d_quoting e then Flush else if str_in k (delimiter_tokens table) then Illegal else Flush).
  assert (TL : forall q ch l old, (forall o d, old <> Push o d) -> forall o d, token_loop q ch l k old <> Push o d).
  { clear. intros q ch l. induction l as [|x l IH]; cbn; intros old H o d; auto. destruct (str_eqb k x); auto. destruct (starts_with x k); [discriminate|]. destruct (q && _); apply IH; auto; discriminate. }
  assert (D : forall o d, default <> Push o d) by (intros; unfold default; destruct (d_quoting e); [discriminate|]; destruct (str_in k (delimiter_tokens table)); discriminate).
  assert (A : forall b o d, (let a := if str_in k (all_tokens b table) then token_loop (d_quoting e) (d_close e ++ d_escape e) (d_close e :: (if is_nil (d_escape e) then [] else [d_escape e])) k default else default in
      let a := if d_quoting e && negb (d_multiline e) && str_in k (newlines_of b table) then IllegalNewline else a in
      let a := if str_eqb k (d_close e) then Pop else a in
      if negb (is_nil (d_escape e)) && str_eqb k (d_escape e) then Escape else a) <> Push o d).
  { intros b0 o0 d0. cbv zeta. destruct (negb _ && _); [discriminate|]. destruct (str_eqb k (d_close e)); [discriminate|]. destruct (d_quoting e && _ && _); [discriminate|]. destruct (str_in k (all_tokens b0 table)); auto. }
  destruct (d_quoting e) eqn:Q; [intros E; exfalso; eapply A; exact E|]. unfold push_or. destruct (get table k); auto. intros E. exfalso. eapply A. exact E.
Qed.
Lemma enter_agree b b' table state : forall current stack, enter_state b table state current stack = enter_state b' table state current stack.
Proof.
  induction state as [|k state IH]; intros; cbn; auto. destruct (lookup b table current k) eqn:E.
  1: rewrite (lookup_push _ b' _ _ _ _ _ E); apply IH.
  all: destruct (lookup b' table current k) eqn:E'; auto; apply (lookup_push _ b) in E'; congruence.
Qed.
Definition table_of (table : option delimiters) : delimiters := match table with None => default_delimiters | Some t => t end.
Lemma split_delimiters_agree b b' s table state : nonempty (delimiter_tokens (table_of table)) -> same_breaks s -> split_delimiters b s table state = split_delimiters b' s table state.
Proof.
  intros N F. unfold split_delimiters. fold (table_of table). destruct (is_nil (table_of table)) eqn:T; auto. destruct (str_in backslash _); auto. destruct (existsb _ (openers _)); auto.
  rewrite (enter_agree b b'). destruct (enter_state _ _ _ _ _) as [[c st]|]; auto. f_equal. apply run_agree; auto. intros E. now rewrite E in T.
Qed.
