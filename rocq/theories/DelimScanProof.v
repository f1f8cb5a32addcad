(** split_delimiters is the scanner of DelimScanSpec.v. *)
From Verif Require Import DelimModel DelimSpec SplitSpec SplitProof SplitProof2 SplitProof3 SplitProps PyStrProof DelimProof DelimProof2 DelimProof3 DelimProof4 DelimProof5 DelimScanSpec.

Section Table.
  Context (is_bytes : bool) (table : delimiters) (OK : table_ok table).
  Notation lb := (is_linebreak is_bytes).
  Notation tokens := (all_tokens is_bytes table).
  Notation token_at := (token_at lb table).
  Notation decide := (decide lb table).

  Lemma ncs c : In c (newline_chars is_bytes) <-> lb c = true.
  Proof. apply (newline_chars_spec is_bytes []). intros k k' x []. Qed.
  Lemma opens_any_get w : opens_any table w = get table w.
  Proof. clear OK. unfold opens_any. induction table as [|[k d] t IH]; cbn [find get fst snd option_map]; auto. destruct (str_eqb k w); auto. Qed.
  Lemma is_delimiter_in w : is_delimiter table w = str_in w (delimiter_tokens table).
  Proof.
    apply eq_true_iff_eq. rewrite str_in_iff. unfold is_delimiter, delimiter_tokens, openers, closers, escapes. rewrite existsb_exists, !in_app_iff, !in_map_iff. split.
    - intros (p & I & H). rewrite !orb_true_iff, andb_true_iff, !str_eqb_iff in H. destruct H as [[->| ->]|[Q ->]]; [left|right; left|right; right]; exists p; auto. split; auto. apply filter_In. auto.
    - intros [(p & <- & I)|[(p & <- & I)|(p & <- & I)]]; [| |apply filter_In in I as [I Q]]; exists p; rewrite ?str_eqb_refl, ?orb_true_r; split; auto. now rewrite Q, !orb_true_r.
  Qed.
  Lemma newlines_in w : In w (newlines_of is_bytes table) <-> existsb (fun p => negb (d_multiline (snd p))) table && is_break lb w = true.
  Proof.
    clear OK. unfold newlines_of.
    assert (E : existsb (fun p : str * delimiter => negb (d_multiline (snd p))) table = negb (forallb (fun p : str * delimiter => d_multiline (snd p)) table)).
    { induction table as [|p t IH]; cbn; auto. rewrite IH. now destruct (d_multiline (snd p)). }
    rewrite E. destruct (forallb _ table); cbn [negb andb]; [split; [contradiction|discriminate]|].
    assert (M : (if is_bytes then bytes_linebreaks_without_crlf else str_linebreaks_without_crlf) = map one (newline_chars is_bytes)) by (unfold newline_chars; destruct is_bytes; reflexivity).
    rewrite M, in_map_iff. unfold is_break. split.
    - intros (c & <- & I). apply ncs in I. exact I.
    - intros H. destruct w as [|c [|? ?]]; try discriminate. exists c. split; auto. now apply ncs.
  Qed.
  Lemma is_token_in w : is_token lb table w = true <-> In w tokens.
  Proof. unfold is_token, all_tokens. rewrite in_app_iff, newlines_in, orb_true_iff, is_delimiter_in, str_in_iff. tauto. Qed.
  Lemma token_nonempty w : is_token lb table w = true -> w <> [].
  Proof. intros H. apply is_token_in in H. pose proof (tokens_nonempty is_bytes table OK) as N. rewrite Forall_forall in N. auto. Qed.
  Lemma token_at_unique r w w' : token_at r w -> token_at r w' -> w = w'.
  Proof.
    intros (T & (t & E) & L) (T' & (t' & E') & L'). pose proof (L w' t' T' E') as A. pose proof (L' w t T E) as B.
    assert (Q : length w = length w') by lia. rewrite E in E'. apply app_eq_app in E' as (l & [[-> _]|[-> _]]); rewrite app_length in Q; destruct l; cbn in Q; try lia; now rewrite app_nil_r.
  Qed.
  Lemma longest_token w t : longest tokens w t <-> token_at (w ++ t) w.
  Proof.
    unfold longest, DelimScanSpec.token_at. rewrite is_token_in. split.
    - intros [I L]. split; [exact I|]. split; [eauto|]. intros w' t' T E. apply is_token_in in T. eauto.
    - intros (I & _ & L). split; [exact I|]. intros w' t' T E. apply (L w' t'); auto. now apply is_token_in.
  Qed.
  Lemma starts_begins a b : starts_with a b = begins a b.
  Proof.
    unfold begins. revert b. induction a as [|c a IH]; intros [|d b]; cbn [starts_with length firstn str_eqb]; auto. now rewrite IH.
  Qed.

  (** lookup *)
  Definition means (m : move) (w : str) (a : action) : Prop :=
    match m with
    | Opens d => a = Push w d
    | Closes x => a = if str_eqb x w then Pop else Truncate x
    | Escapes x => a = if str_eqb x w then Escape else Truncate x
    | PassOne => a = Flush1
    | PassOver => a = Flush
    | Wrong => a = Illegal \/ a = IllegalNewline
    end.
  Lemma lookup_means cur w : in_table table cur -> In w tokens -> means (decide cur w) w (lookup is_bytes table cur w).
  Proof.
    intros IT Iw. assert (Sw : str_in w tokens = true) by now apply str_in_iff. destruct cur as [d|]; cbn [DelimScanSpec.decide lookup].
    - destruct IT as [k I]. rewrite Sw. pose proof (ok_quoting _ OK k d I) as Qd. pose proof (ok_keys _ OK k d I) as [_ Nc].
      destruct (d_quoting d) eqn:Q; cbn [andb].
      + assert (Ne : d_escape d <> []) by tauto. rewrite (proj2 (is_nil_false _ _) Ne). cbn [negb andb].
        destruct (str_eqb w (d_escape d)) eqn:Ee; [cbn [means]; now rewrite str_eqb_refl|].
        destruct (str_eqb w (d_close d)) eqn:Ec; [cbn [means]; now rewrite str_eqb_refl|].
        assert (Nl : negb (d_multiline d) && str_in w (newlines_of is_bytes table) = negb (d_multiline d) && is_break lb w).
        { destruct (d_multiline d) eqn:M; cbn [negb andb]; auto. apply eq_true_iff_eq. rewrite str_in_iff, newlines_in, andb_true_iff. split; [tauto|]. intros B. split; auto.
          apply existsb_exists. exists (k, d). split; auto. cbn. now rewrite M. }
        rewrite Nl. destruct (negb (d_multiline d) && is_break lb w); [now right|]. cbn [token_loop]. rewrite Ec, Ee, !starts_begins.
        change (shares_characters w (d_close d ++ d_escape d)) with (share w (d_close d ++ d_escape d)). cbn [andb].
        assert (Neq : forall x, str_eqb w x = false -> str_eqb x w = false) by (intros x H; apply not_true_iff_false; intros H1; apply str_eqb_iff in H1; subst; now rewrite str_eqb_refl in H).
        destruct (begins (d_close d) w) eqn:Bc; cbn [andb].
        * destruct (str_eqb (d_close d) (d_escape d)) eqn:Eq; cbn [negb means].
          -- apply str_eqb_iff in Eq. rewrite <- Eq, Bc. cbn [means]. rewrite Neq by auto. reflexivity.
          -- now rewrite Neq by auto.
        * destruct (begins (d_escape d) w) eqn:Be; [cbn [means]; now rewrite Neq by auto|]. destruct (share w (d_close d ++ d_escape d)); reflexivity.
      + assert (Ne : d_escape d = []) by (destruct (d_escape d); auto; destruct Qd as [_ Qd]; discriminate Qd; congruence).
        rewrite Ne. cbn [is_nil negb andb token_loop]. unfold push_or. rewrite opens_any_get, is_delimiter_in. destruct (get table w) as [d'|] eqn:G; [reflexivity|].
        rewrite starts_begins. destruct (str_eqb w (d_close d)) eqn:Ec.
        * apply str_eqb_iff in Ec. subst w. assert (begins (d_close d) (d_close d) = true) as -> by (unfold begins; rewrite firstn_all; apply str_eqb_refl). cbn [means]. now rewrite str_eqb_refl.
        * destruct (begins (d_close d) w) eqn:Bc.
          -- cbn [means]. assert (str_eqb (d_close d) w = false) as ->; auto. apply not_true_iff_false. intros H. apply str_eqb_iff in H. rewrite <- H, str_eqb_refl in Ec. discriminate.
          -- destruct (str_in w (delimiter_tokens table)); cbn [means]; auto.
    - unfold push_or. rewrite opens_any_get, is_delimiter_in. destruct (get table w); [reflexivity|]. destruct (str_in w (delimiter_tokens table)); cbn [means]; auto.
  Qed.

  Lemma begins_app a w : begins a w = true -> exists r, w = a ++ r.
  Proof. intros H. rewrite <- starts_begins in H. now apply starts_with_app. Qed.
  Lemma close_token k d : In (k, d) table -> In (d_close d) tokens.
  Proof. intros I. unfold all_tokens, delimiter_tokens, closers. rewrite !in_app_iff. left. right. left. apply in_map_iff. exists (k, d). auto. Qed.
  Lemma escape_token k d : In (k, d) table -> d_quoting d = true -> In (d_escape d) tokens.
  Proof. intros I Q. unfold all_tokens, delimiter_tokens, escapes. rewrite !in_app_iff. left. right. right. apply in_map_iff. exists (k, d). split; auto. apply filter_In. auto. Qed.
  Lemma lookup_close d : in_table table (Some d) -> (d_quoting d = true -> d_close d <> d_escape d) -> lookup is_bytes table (Some d) (d_close d) = Pop.
  Proof.
    intros IT H. destruct IT as [k I]. pose proof (lookup_means (Some d) (d_close d) ltac:(now exists k) (close_token k d I)) as M.
    cbn [DelimScanSpec.decide] in M. destruct (d_quoting d) eqn:Q.
    - assert (str_eqb (d_close d) (d_escape d) = false) as E by (apply not_true_iff_false; intros E; apply str_eqb_iff in E; now apply H).
      rewrite E, str_eqb_refl in M. cbn [means] in M. now rewrite str_eqb_refl in M.
    - rewrite opens_any_get in M. destruct (get table (d_close d)) as [d'|] eqn:G.
      + exfalso. apply get_in in G. apply (ok_disjoint _ OK (d_close d) k d); auto. apply in_map_iff. exists (d_close d, d'). auto.
      + assert (begins (d_close d) (d_close d) = true) as B by (unfold begins; rewrite firstn_all; apply str_eqb_refl). rewrite B in M. cbn [means] in M. now rewrite str_eqb_refl in M.
  Qed.
  Lemma lookup_escape d : in_table table (Some d) -> d_quoting d = true -> lookup is_bytes table (Some d) (d_escape d) = Escape.
  Proof.
    intros IT Q. destruct IT as [k I]. pose proof (lookup_means (Some d) (d_escape d) ltac:(now exists k) (escape_token k d I Q)) as M.
    cbn [DelimScanSpec.decide] in M. rewrite Q, str_eqb_refl in M. cbn [means] in M. now rewrite str_eqb_refl in M.
  Qed.
  Lemma decide_closes cur w x : in_table table cur -> decide cur w = Closes x ->
    exists d, cur = Some d /\ x = d_close d /\ lookup is_bytes table cur x = Pop /\ exists r, w = x ++ r.
  Proof.
    intros IT D. destruct cur as [d|]; cbn [DelimScanSpec.decide] in D; [|destruct (opens_any table w); [discriminate|destruct (is_delimiter table w); discriminate]].
    exists d. split; auto. destruct (d_quoting d) eqn:Q.
    - destruct (str_eqb w (d_escape d)) eqn:Ee; [discriminate|]. destruct (str_eqb w (d_close d)) eqn:Ec.
      + injection D as <-. apply str_eqb_iff in Ec. split; auto. split; [|exists []; now rewrite app_nil_r]. rewrite Ec. apply lookup_close; auto. intros _ E. rewrite Ec, E, str_eqb_refl in Ee. discriminate.
      + destruct (negb (d_multiline d) && is_break lb w); [discriminate|]. destruct (begins (d_close d) w && negb (str_eqb (d_close d) (d_escape d))) eqn:B.
        * injection D as <-. apply andb_true_iff in B as [B E]. split; auto. split; [|now apply begins_app]. apply lookup_close; auto. intros _ E'. rewrite E', str_eqb_refl in E. discriminate.
        * destruct (begins (d_escape d) w); [discriminate|]. destruct (share w (d_close d ++ d_escape d)); discriminate.
    - destruct (opens_any table w); [discriminate|]. destruct (begins (d_close d) w) eqn:B; [|destruct (is_delimiter table w); discriminate].
      injection D as <-. split; auto. split; [|now apply begins_app]. apply lookup_close; auto. intros Q'. congruence.
  Qed.
  Lemma decide_escapes cur w x : in_table table cur -> decide cur w = Escapes x -> lookup is_bytes table cur x = Escape /\ x <> [] /\ exists r, w = x ++ r.
  Proof.
    intros IT D. destruct cur as [d|]; cbn [DelimScanSpec.decide] in D; [|destruct (opens_any table w); [discriminate|destruct (is_delimiter table w); discriminate]].
    destruct (d_quoting d) eqn:Q.
    - assert (Ne : d_escape d <> []) by (destruct IT as [k I]; now apply (ok_quoting _ OK k d I)).
      destruct (str_eqb w (d_escape d)) eqn:Ee.
      + injection D as <-. apply str_eqb_iff in Ee. rewrite Ee. split; [now apply lookup_escape|]. split; auto. exists []. now rewrite app_nil_r.
      + destruct (str_eqb w (d_close d)); [discriminate|]. destruct (negb (d_multiline d) && is_break lb w); [discriminate|]. destruct (begins (d_close d) w && _); [discriminate|].
        destruct (begins (d_escape d) w) eqn:B; [|destruct (share w (d_close d ++ d_escape d)); discriminate]. injection D as <-. split; [now apply lookup_escape|]. split; auto. now apply begins_app.
    - destruct (opens_any table w); [discriminate|]. destruct (begins (d_close d) w); [discriminate|]. destruct (is_delimiter table w); discriminate.
  Qed.
  Lemma decide_opens cur w d : decide cur w = Opens d -> In (w, d) table.
  Proof.
    intros D. apply get_in. rewrite <- opens_any_get. destruct cur as [d0|]; cbn [DelimScanSpec.decide] in D.
    - destruct (d_quoting d0).
      + repeat match type of D with (if ?b then _ else _) = _ => destruct b end; discriminate.
      + destruct (opens_any table w); [congruence|]. repeat match type of D with (if ?b then _ else _) = _ => destruct b end; discriminate.
    - destruct (opens_any table w); [congruence|]. destruct (is_delimiter table w); discriminate.
  Qed.

  (** the relation determines its results *)
  Notation scan := (scan_any lb table).
  Lemma token_needs_text s p w : token_at (skipn p s) w -> p < length s.
  Proof.
    intros (T & (t & E) & _). apply token_nonempty in T. destruct (Nat.lt_ge_cases p (length s)); auto. rewrite skipn_all2 in E by auto. destruct w; [congruence|discriminate].
  Qed.
  Local Ltac clash := exfalso; match goal with
    | H : token_at _ _, E : fst _ = length _ |- _ => apply token_needs_text in H; lia
    | N : nth_error ?s (fst ?a) = Some _, E : fst ?a = length _ |- _ => rewrite E, (proj2 (nth_error_None _ _)) in N by lia; discriminate
    | N : forall w, ~ token_at _ w, H : token_at _ _ |- _ => exact (N _ H)
    | A : decide _ ?w = _, B : decide _ ?w' = _, H : token_at _ ?w, H' : token_at _ ?w' |- _ =>
        assert (w = w') by (eapply token_at_unique; eauto); subst; cbn [hd_error] in *; congruence
    end.
  Local Ltac same := match goal with
    | A : decide _ ?w = _, B : decide _ ?w' = _, H : token_at _ ?w, H' : token_at _ ?w' |- _ =>
        assert (w = w') by (eapply token_at_unique; eauto); subst; cbn [hd_error] in *; rewrite A in B; injection B as <-
    end.
  Lemma scan_unique s a st t esc y e : scan s a st t esc y e -> forall y' e', scan s a st t esc y' e' -> y = y' /\ e = e'.
  Proof.
    induction 1 as [a st t esc E|a c st t esc y e N F H IH|a c w st t y e T H IH|a w d st t y e T D H IH|a w x d st t y e T D H IH|a w x st t y e T D H IH|a c w st t y e T D H IH|a w st t y e T D H IH|a w st t T D];
      intros y' e' K; inversion K; subst; try clash; auto.
    - apply IH. match goal with N' : nth_error s (fst a) = Some ?c' |- _ => assert (c' = c) by congruence; subst end. assumption.
    - match goal with T' : token_at _ (_ :: _) |- _ => pose proof (token_at_unique _ _ _ T T') as Q end. injection Q as <- <-. apply IH. assumption.
    - same. match goal with H' : scan s _ (d :: st) [] false _ _ |- _ => destruct (IH _ _ H') as [-> ->] end. auto.
    - same. match goal with H' : scan s _ st [] false _ _ |- _ => destruct (IH _ _ H') as [-> ->] end. auto.
    - same. eauto.
    - match goal with T' : token_at _ (?c' :: ?w') |- _ => match c' with c => fail 1 | _ => pose proof (token_at_unique _ _ _ T T') as Q end end. injection Q as <- <-. eauto.
    - match goal with T' : token_at _ ?w' |- _ => match w' with w => fail 1 | _ => pose proof (token_at_unique _ _ _ T T') as Q end end. subst. eauto.
  Qed.
End Table.
