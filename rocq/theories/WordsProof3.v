(** Proofs about gently_title. *)
From Verif Require Import PyBaseProof SplitModel DelimProof DelimProps LinesModel LinesSpec LinesProof WordsModel WordsSpec.

Section Gently.
  Context (is_bytes : bool) (upper : chr -> str) (ap dq : chr -> bool).
  Definition sp (c : chr) : bool := white is_bytes c || (c =? 40)%N.
  Definition qu (c : chr) : bool := ap c || dq c.
  Definition dor (c : chr) : bool := contains (upper c) (u "DO").
  Notation step := (gentle_step is_bytes upper ap dq).
  Notation loop := (gentle_loop is_bytes upper ap dq).

  Lemma gentle_chars s : forall st, exists outs, loop st s = concat outs /\ Forall2 (fun c o => o = [c] \/ o = upper c) s outs.
  Proof.
    induction s as [|c s IH]; intros st; cbn [gentle_loop]; [exists []; split; auto|].
    destruct (step st c) as [st' o] eqn:E. destruct (IH st') as (outs & -> & F). exists (o :: outs). split; auto. constructor; auto.
    destruct st; cbn in E; try destruct (white is_bytes c || (c =? 40)%N); try destruct (ap c || dq c); injection E as _ <-; auto.
  Qed.

  Definition st (w : str) : title_state :=
    match w with
    | [] => AfterWhitespace
    | d :: t => if forallb qu w then AfterQuote
                else match t with
                     | [] => if dor d then AfterDO else InWord
                     | [a] => if negb (qu d) && dor d && ap a then AfterDOApostrophe else InWord
                     | _ => InWord
                     end
    end.
  Definition caps (w : str) (c : chr) : bool :=
    match st w with AfterWhitespace | AfterDOApostrophe => true | AfterQuote => negb (qu c) | _ => false end.
  Lemma st_snoc w c : sp c = false -> step (st w) c = (st (w ++ [c]), if caps w c then upper c else [c]).
  Proof.
    intros S. unfold caps. destruct w as [|d [|a [|b w]]]; cbn [app st].
    - unfold gentle_step, st. fold (sp c) (qu c) (dor c). rewrite S. cbn [forallb]. rewrite andb_true_r. destruct (qu c), (dor c); reflexivity.
    - cbn [forallb]. rewrite !andb_true_r. destruct (qu d) eqn:Q; cbn [negb andb].
      + unfold gentle_step. fold (qu c). destruct (qu c) eqn:Qc; reflexivity.
      + destruct (dor d) eqn:D; cbn [andb]; [destruct (ap c) eqn:A; unfold gentle_step; rewrite ?A; reflexivity|]. unfold gentle_step. fold (sp c). rewrite S. reflexivity.
    - cbn [forallb]. rewrite !andb_true_r. destruct (qu d) eqn:Q; cbn [negb andb].
      + destruct (qu a) eqn:Qa; unfold gentle_step; fold (qu c) (sp c); [destruct (qu c) eqn:Qc; reflexivity|rewrite S; reflexivity].
      + destruct (dor d) eqn:D; cbn [andb]; [destruct (ap a) eqn:A; unfold gentle_step; fold (sp c); rewrite ?S; reflexivity|]. unfold gentle_step. fold (sp c). rewrite S. reflexivity.
    - change (d :: a :: b :: w ++ [c]) with ((d :: a :: b :: w) ++ [c]). rewrite forallb_app. cbn [forallb]. rewrite andb_true_r.
      destruct (qu d && (qu a && (qu b && forallb qu w))) eqn:Q; unfold gentle_step; fold (qu c) (sp c); [destruct (qu c); reflexivity|rewrite S; reflexivity].
  Qed.
  Lemma st_quotes w : st w = AfterQuote -> only_quotes qu w.
  Proof.
    destruct w as [|d t]; [discriminate|]. cbn [st]. destruct (forallb qu (d :: t)) eqn:Q; [intros _; split; auto; discriminate|].
    destruct t as [|a [|]]; [destruct (dor d)|destruct (_ && _)|]; discriminate.
  Qed.
  Lemma st_letter w : st w = AfterDO -> name_letter qu dor w.
  Proof.
    destruct w as [|d t]; [discriminate|]. cbn [st]. destruct (forallb qu (d :: t)) eqn:Q; [discriminate|].
    destruct t as [|a [|]]; [|destruct (_ && _)|]; try discriminate. destruct (dor d) eqn:D; [|discriminate]. intros _. exists d. cbn in Q. rewrite andb_true_r in Q. auto.
  Qed.
  Lemma st_prefix w : st w = AfterDOApostrophe <-> name_prefix qu ap dor w.
  Proof.
    split.
    - destruct w as [|d t]; [discriminate|]. cbn [st]. destruct (forallb qu (d :: t)) eqn:Q; [discriminate|].
      destruct t as [|a [|]]; [destruct (dor d)| |]; try discriminate. destruct (negb (qu d) && dor d && ap a) eqn:D; [|discriminate]. intros _.
      apply andb_true_iff in D. destruct D as [D A]. apply andb_true_iff in D. destruct D as [N D]. apply negb_true_iff in N. exists d, a. auto.
    - intros (d & a & -> & N & D & A). cbn [st forallb]. rewrite N. cbn [negb andb]. now rewrite D, A.
  Qed.
  Lemma caps_iff w c : caps w c = true <-> w = [] \/ (only_quotes qu w /\ qu c = false) \/ name_prefix qu ap dor w.
  Proof.
    unfold caps. rewrite <- st_prefix. destruct (st w) eqn:E.
    - split; [discriminate|]. intros [->|[[[N Q] _]|H]]; [discriminate E| |discriminate]. destruct w as [|d t]; [congruence|]. cbn [st] in E. rewrite Q in E. discriminate.
    - split; auto. intros _. left. destruct w as [|d t]; auto. exfalso. cbn [st] in E. destruct (forallb qu (d :: t)); [discriminate|]. destruct t as [|a [|]]; [destruct (dor d)|destruct (_ && _)|]; discriminate.
    - rewrite negb_true_iff. apply st_quotes in E. split; [auto|]. intros [->|[[_ H]|H]]; auto; [destruct E; congruence|discriminate].
    - split; [discriminate|]. intros [->|[[[N Q] _]|H]]; [discriminate E| |discriminate]. destruct w as [|d t]; [congruence|]. cbn [st] in E. rewrite Q in E. discriminate.
    - tauto.
  Qed.
  Lemma so_far_unique before w w' : word_so_far sp before w -> word_so_far sp before w' -> w = w'.
  Proof.
    assert (G : forall (w a a' t : str), existsb sp w = false -> (exists t', w = t' ++ t) -> a ++ w = a' ++ t -> (a' = [] \/ exists r c, a' = r ++ [c] /\ sp c = true) -> w = t).
    { clear. intros w a a' t N [t' ->] E H. rewrite app_assoc in E. apply app_inv_tail in E. subst a'. destruct t' as [|x t' _] using rev_ind; auto. exfalso.
      rewrite app_assoc in H. destruct H as [H|(r & c & E & C)]; [apply app_eq_nil in H; destruct H; discriminate|]. apply app_inj_tail in E. destruct E as [_ ->].
      rewrite !existsb_app in N. cbn in N. rewrite C in N. cbn in N. rewrite orb_true_r in N. discriminate. }
    intros (a & E & A & N) (a' & E' & A' & N'). rewrite E in E'.
    assert (D : (exists t, w = t ++ w') \/ exists t, w' = t ++ w).
    { destruct (le_lt_dec (length w') (length w)) as [L|L].
      - left. exists (firstn (length w - length w') w). rewrite <- (firstn_skipn (length w - length w') w) at 1. f_equal.
        assert (K : skipn (length (a ++ w) - length w') (a ++ w) = w') by (rewrite E'; rewrite skipn_app, app_length; replace (length a' + length w' - length w') with (length a') by lia; rewrite skipn_all, Nat.sub_diag; reflexivity).
        rewrite skipn_app, app_length in K. rewrite skipn_all2 in K by lia. replace (length a + length w - length w' - length a) with (length w - length w') in K by lia. exact K.
      - right. exists (firstn (length w' - length w) w'). rewrite <- (firstn_skipn (length w' - length w) w') at 1. f_equal.
        assert (K : skipn (length (a' ++ w') - length w) (a' ++ w') = w) by (rewrite <- E'; rewrite skipn_app, app_length; replace (length a + length w - length w) with (length a) by lia; rewrite skipn_all, Nat.sub_diag; reflexivity).
        rewrite skipn_app, app_length in K. rewrite skipn_all2 in K by lia. replace (length a' + length w' - length w - length a') with (length w' - length w) in K by lia. exact K. }
    destruct D as [D|D]; [exact (G w a a' w' N D E' A')|symmetry; exact (G w' a' a w N' D (eq_sym E') A)].
  Qed.
  Definition special (w : str) : Prop := only_quotes qu w \/ name_letter qu dor w \/ name_prefix qu ap dor w.
  Lemma gentle_capital s : forall before w, word_so_far sp before w ->
    (forall b v c a, before ++ s = b ++ c :: a -> length before <= length b -> word_so_far sp b v -> special v -> sp c = false) ->
    exists outs, loop (st w) s = concat outs /\ length outs = length s /\
      forall i c, nth_error s i = Some c -> (capital sp qu ap dor (before ++ firstn i s) c -> nth_error outs i = Some (upper c)) /\ (~ capital sp qu ap dor (before ++ firstn i s) c -> nth_error outs i = Some [c]).
  Proof.
    induction s as [|c s IH]; intros before w W T; [exists []; split; auto; split; auto; intros [|i] ? E; discriminate|].
    assert (Tail : forall b v d a, (before ++ [c]) ++ s = b ++ d :: a -> length (before ++ [c]) <= length b -> word_so_far sp b v -> special v -> sp d = false).
    { intros b v d a E L. apply (T b v d a); [rewrite <- app_assoc in E; exact E|rewrite app_length in L; cbn in L; lia]. }
    assert (Key : exists w' o, word_so_far sp (before ++ [c]) w' /\ step (st w) c = (st w', o) /\ (capital sp qu ap dor before c -> o = upper c) /\ (~ capital sp qu ap dor before c -> o = [c])).
    { destruct (sp c) eqn:S.
      - exists [], [c]. split; [|split; [|split; auto]].
        + exists (before ++ [c]). rewrite app_nil_r. split; auto. split; auto. right. eauto.
        + assert (Ns : ~ special w) by (intros H; specialize (T before w c s eq_refl ltac:(lia) W H); congruence).
          destruct (st w) eqn:E; [| |exfalso; apply Ns; left; now apply st_quotes|exfalso; apply Ns; right; left; now apply st_letter|exfalso; apply Ns; right; right; now apply st_prefix];
            unfold gentle_step; fold (sp c); rewrite S; reflexivity.
        + intros [H _]. congruence.
      - exists (w ++ [c]), (if caps w c then upper c else [c]). split; [|split; [now apply st_snoc|]].
        + destruct W as (a & -> & A & N). exists a. split; [now rewrite app_assoc|]. split; auto. rewrite existsb_app, N. cbn. now rewrite S.
        + assert (X : capital sp qu ap dor before c <-> caps w c = true).
          { rewrite caps_iff. split; [|intros H; split; auto; exists w; auto]. intros (_ & v & V & H). now rewrite (so_far_unique _ _ _ W V). }
          rewrite X. destruct (caps w c); split; congruence. }
    destruct Key as (w' & o & W' & E & O1 & O2). cbn [gentle_loop]. rewrite E. destruct (IH (before ++ [c]) w' W' Tail) as (outs & -> & L & H).
    exists (o :: outs). split; auto. split; [cbn; now rewrite L|]. intros [|i] d Ed; cbn [nth_error] in Ed.
    - injection Ed as <-. cbn [firstn nth_error]. rewrite app_nil_r. split; intros C; f_equal; auto.
    - cbn [firstn nth_error]. specialize (H i d Ed). rewrite <- app_assoc in H. exact H.
  Qed.
  (** Without any condition on the text. *)
  Lemma unfinished_st w : unfinished qu ap dor w <-> match st w with AfterQuote | AfterDO | AfterDOApostrophe => True | _ => False end.
  Proof.
    split.
    - intros [[N Q]|[(d & -> & N & D)|H]].
      + destruct w as [|d t]; [congruence|]. cbn [st]. now rewrite Q.
      + cbn [st forallb]. rewrite N. cbn [andb]. now rewrite D.
      + apply st_prefix in H. now rewrite H.
    - destruct (st w) eqn:E; intros F; try (destruct F; fail); [left; now apply st_quotes|right; left; now apply st_letter|right; right; now apply st_prefix].
  Qed.
  Lemma st_snoc_any w c : sp c = false \/ unfinished qu ap dor w -> step (st w) c = (st (w ++ [c]), if caps w c then upper c else [c]).
  Proof.
    intros [S|U]; [now apply st_snoc|]. apply unfinished_st in U. unfold caps. destruct w as [|d [|a [|b w]]]; cbn [app st] in *.
    - destruct U.
    - cbn [forallb] in *. rewrite !andb_true_r in *. destruct (qu d) eqn:Q; cbn [negb andb].
      + unfold gentle_step. fold (qu c). destruct (qu c) eqn:Qc; reflexivity.
      + destruct (dor d) eqn:D; cbn [andb]; [destruct (ap c) eqn:A; unfold gentle_step; rewrite ?A; reflexivity|destruct U].
    - cbn [forallb] in *. rewrite !andb_true_r in *. destruct (qu d) eqn:Q; cbn [negb andb] in *.
      + destruct (qu a) eqn:Qa; [|destruct U]. unfold gentle_step; fold (qu c); destruct (qu c) eqn:Qc; reflexivity.
      + destruct (dor d) eqn:D; cbn [andb] in *; [destruct (ap a) eqn:A; [|destruct U]; unfold gentle_step; reflexivity|destruct U].
    - change (d :: a :: b :: w ++ [c]) with ((d :: a :: b :: w) ++ [c]). rewrite forallb_app. cbn [forallb]. rewrite andb_true_r.
      cbn [forallb] in U. destruct (qu d && (qu a && (qu b && forallb qu w))) eqn:Q; [|destruct U]. unfold gentle_step; fold (qu c); destruct (qu c); reflexivity.
  Qed.
  Lemma long_word_inv before w : long_word sp qu ap dor before w -> before = [] /\ w = [] \/ exists b c v, before = b ++ [c] /\ long_word sp qu ap dor b v /\
    ((w = v ++ [c] /\ (sp c = false \/ unfinished qu ap dor v)) \/ (w = [] /\ sp c = true /\ ~ unfinished qu ap dor v)).
  Proof. intros [|b v c L H|b v c L S N]; [auto| |]; right; exists b, c, v; auto 7. Qed.
  Lemma long_word_unique before : forall w w', long_word sp qu ap dor before w -> long_word sp qu ap dor before w' -> w = w'.
  Proof.
    induction before as [|c b IH] using rev_ind; intros w w' L L'.
    - apply long_word_inv in L, L'. destruct L as [(_ & ->)|(b & c & v & E & _)]; [|destruct b; discriminate]. destruct L' as [(_ & ->)|(b & c & v & E & _)]; [auto|destruct b; discriminate].
    - apply long_word_inv in L, L'. destruct L as [(E & _)|(b1 & c1 & v1 & E & L & H)]; [destruct b; discriminate|]. destruct L' as [(E' & _)|(b2 & c2 & v2 & E' & L' & H')]; [destruct b; discriminate|].
      apply app_inj_tail in E, E'. destruct E as [<- <-], E' as [<- <-]. pose proof (IH _ _ L L') as <-.
      destruct H as [(-> & [H|H])|(-> & S & N)], H' as [(-> & [H'|H'])|(-> & S' & N')]; auto; try congruence; contradiction.
  Qed.
  Lemma gentle_exact s : forall before w, long_word sp qu ap dor before w ->
    exists outs, loop (st w) s = concat outs /\ length outs = length s /\
      forall i c, nth_error s i = Some c -> (really_capital sp qu ap dor (before ++ firstn i s) c -> nth_error outs i = Some (upper c)) /\
        (~ really_capital sp qu ap dor (before ++ firstn i s) c -> nth_error outs i = Some [c]).
  Proof.
    induction s as [|c s IH]; intros before w W; [exists []; split; auto; split; auto; intros [|i] ? E; discriminate|].
    assert (RC : really_capital sp qu ap dor before c <-> (w = [] /\ sp c = false) \/ (only_quotes qu w /\ qu c = false) \/ name_prefix qu ap dor w).
    { split; [|intros H; exists w; auto]. intros (v & V & H). now rewrite (long_word_unique _ _ _ W V). }
    assert (Key : exists w' o, long_word sp qu ap dor (before ++ [c]) w' /\ step (st w) c = (st w', o) /\ (really_capital sp qu ap dor before c -> o = upper c) /\ (~ really_capital sp qu ap dor before c -> o = [c])).
    { assert (U : unfinished qu ap dor w \/ ~ unfinished qu ap dor w) by (rewrite unfinished_st; destruct (st w); auto).
      assert (D : (sp c = false \/ unfinished qu ap dor w) \/ (sp c = true /\ ~ unfinished qu ap dor w)) by (destruct (sp c); tauto).
      destruct D as [D|[S N]].
      - exists (w ++ [c]), (if caps w c then upper c else [c]). split; [now constructor|]. split; [now apply st_snoc_any|].
        assert (X : really_capital sp qu ap dor before c <-> caps w c = true).
        { rewrite RC, caps_iff. split; [tauto|]. intros [->|H]; [|auto]. left. split; auto. destruct D as [D|D]; auto. apply unfinished_st in D. destruct D. }
        rewrite X. destruct (caps w c); split; congruence.
      - exists [], [c]. split; [now apply (Gap _ _ _ _ before w)|]. split; [|split; auto].
        + rewrite unfinished_st in N. unfold gentle_step. fold (sp c). destruct (st w); [rewrite S; reflexivity|rewrite S; reflexivity|exfalso; auto|exfalso; auto|exfalso; auto].
        + rewrite RC. intros [[_ H]|[[H _]|H]]; [congruence|destruct N; left; auto|destruct N; right; right; auto]. }
    destruct Key as (w' & o & W' & E & O1 & O2). cbn [gentle_loop]. rewrite E. destruct (IH (before ++ [c]) w' W') as (outs & -> & L & H).
    exists (o :: outs). split; auto. split; [cbn; now rewrite L|]. intros [|i] d Ed; cbn [nth_error] in Ed.
    - injection Ed as <-. cbn [firstn nth_error]. rewrite app_nil_r. split; intros C; f_equal; auto.
    - cbn [firstn nth_error]. specialize (H i d Ed). rewrite <- app_assoc in H. exact H.
  Qed.
  (** A second pass changes nothing, if upper-casing a character gives one character of the same kind. *)
  Lemma gentle_idempotent s : (forall c, In c s -> exists c', upper c = [c'] /\ upper c' = [c'] /\ sp c' = sp c /\ ap c' = ap c /\ dq c' = dq c) ->
    forall st, loop st (loop st s) = loop st s.
  Proof.
    induction s as [|c s IH]; intros H st0; auto. cbn [gentle_loop].
    destruct (H c ltac:(left; auto)) as (c' & U & U' & S & A & D). destruct (step st0 c) as [s1 o] eqn:E.
    assert (X : exists d, o = [d] /\ step st0 d = (s1, [d])).
    { destruct st0; unfold gentle_step in *; fold (sp c) in E; rewrite ?U in E.
      - injection E as <- <-. exists c. auto.
      - destruct (sp c) eqn:Sc; injection E as <- <-; [exists c; fold (sp c); rewrite Sc; auto|]. exists c'. fold (sp c'). rewrite S, A, D, U'. auto.
      - destruct (ap c || dq c) eqn:Q; injection E as <- <-; [exists c; rewrite Q; auto|]. exists c'. rewrite A, D, Q, U'. auto.
      - injection E as <- <-. exists c. auto.
      - injection E as <- <-. exists c'. rewrite U'. auto. }
    destruct X as (d & -> & E'). cbn [app gentle_loop]. rewrite E'. cbn [app]. f_equal. apply IH. intros; apply H; right; auto.
  Qed.
End Gently.
