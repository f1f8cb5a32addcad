(** With quote marks only, the scanner of split_delimiters and the one of split_quoted_strings agree. *)
From Verif Require Import PyBase PyStr DelimModel DelimSpec DelimProof2 DelimProof5 DelimProps QuoteAgreeSpec.

Section Agree.
  Context (is_bytes : bool) (quotes multi : list chr) (e : chr).
  Notation lb := (is_linebreak is_bytes).
  Notation marks := (quotes ++ multi).
  Context (Emarks : ~ In e marks) (Elb : lb e = false) (Ne : marks <> []).
  Definition entry (m : bool) (c : chr) : chr * delimiter1 := (c, Quote c e m).
  Definition quote_table : list (chr * delimiter1) := map (entry false) quotes ++ map (entry true) multi.
  Notation bad := (newline_inside is_bytes (map (fun c => [c]) multi)).
  Context (ND : NoDup marks).
  Definition pairs_ok (s : str) : Prop := forall a x b, s = a ++ [e; x] ++ b -> lb x = false /\ ~ In x multi.

  Lemma chr_in_iff c l : chr_in c l = true <-> In c l.
  Proof. unfold chr_in. rewrite existsb_exists. split; [intros (x & I & E); apply N.eqb_eq in E; now subst|intros I; exists c; split; auto; apply N.eqb_refl]. Qed.
  Lemma chr_in_not c l : chr_in c l = false <-> ~ In c l.
  Proof. rewrite <- chr_in_iff. destruct (chr_in c l); split; congruence. Qed.
  Lemma opens_app l1 l2 c : opens (l1 ++ l2) c = match opens l1 c with Some d => Some d | None => opens l2 c end.
  Proof. induction l1 as [|[k d] l1 IH]; cbn; auto. destruct (k =? c)%N; auto. Qed.
  Lemma opens_entry m l c : opens (map (entry m) l) c = if chr_in c l then Some (Quote c e m) else None.
  Proof. induction l as [|k l IH]; cbn; auto. rewrite (N.eqb_sym c k). destruct (N.eqb_spec k c); cbn; subst; auto. Qed.
  Lemma disjoint c : In c quotes -> ~ In c multi.
  Proof. clear -ND. induction quotes as [|k l IH]; cbn; [intros []|]. cbn in ND. apply NoDup_cons_iff in ND. destruct ND as [N1 N2]. intros [->|I]; [intros J; apply N1, in_app_iff; auto|auto]. Qed.
  Lemma opens_table c : opens quote_table c = if chr_in c marks then Some (Quote c e (chr_in c multi)) else None.
  Proof.
    unfold quote_table. rewrite opens_app, !opens_entry. destruct (chr_in c quotes) eqn:Q.
    - apply chr_in_iff in Q. replace (chr_in c marks) with true by (symmetry; apply chr_in_iff, in_app_iff; auto).
      replace (chr_in c multi) with false by (symmetry; apply chr_in_not, disjoint, Q). reflexivity.
    - assert (E : chr_in c marks = chr_in c multi).
      { apply eq_true_iff_eq. rewrite !chr_in_iff, in_app_iff. apply chr_in_not in Q. tauto. }
      rewrite E. destruct (chr_in c multi); reflexivity.
  Qed.
  Lemma reserved_table c : chr_in c marks = false -> reserved quote_table c = (c =? e)%N.
  Proof.
    intros H. apply chr_in_not in H. apply eq_true_iff_eq. unfold reserved. rewrite existsb_exists, N.eqb_eq. split.
    - intros ([k d] & I & E). unfold quote_table in I. rewrite in_app_iff, !in_map_iff in I.
      destruct I as [(k' & [= -> <-] & J)|(k' & [= -> <-] & J)]; cbn in E; apply orb_true_iff in E; destruct E as [E|E]; apply N.eqb_eq in E; subst; auto;
        exfalso; apply H, in_app_iff; auto.
    - intros ->. destruct quotes as [|k l] eqn:Eq; [destruct multi as [|k l] eqn:Em; [now elim Ne|]|].
      + exists (entry true k). unfold quote_table. rewrite Eq, Em. split; [cbn; auto|]. cbn. rewrite N.eqb_refl. apply orb_true_r.
      + exists (entry false k). unfold quote_table. rewrite Eq. split; [cbn; auto|]. cbn. rewrite N.eqb_refl. apply orb_true_r.
  Qed.

  (** the two states, and the text read so far *)
  Definition same (mode : option (chr * str)) (stack : list delimiter1) (text : str) : Prop :=
    match mode with
    | None => stack = []
    | Some (q, _) => In q marks /\ stack = [Quote q e (chr_in q multi)] /\ (chr_in q multi = false -> existsb lb text = false)
    end.
  Definition shown_mark (mode : option (chr * str)) : option str := match mode with None => None | Some (_, first) => Some first end.
  Lemma str_in_single q l : str_in [q] (map (fun c => [c]) l) = chr_in q l.
  Proof. induction l as [|k l IH]; cbn; auto. rewrite andb_true_r. f_equal; auto. Qed.
  Lemma bad_inside first text tr q : bad (mkSegment first text tr [q]) = negb (chr_in q multi) && existsb lb text.
  Proof. unfold newline_inside. cbn [inside body is_nil negb andb]. now rewrite str_in_single. Qed.
  Lemma existsb_lb_app a c : existsb lb (a ++ [c]) = existsb lb a || lb c.
  Proof. rewrite existsb_app. cbn. now rewrite orb_false_r. Qed.
  (** a forbidden line break that has been read is reported *)
  Lemma stays_bad q first : chr_in q multi = false -> forall n s, length s <= n -> forall text, existsb lb text = true ->
    deliver bad (scan quotes multi (Some e) (Some (q, first)) text s) = ([], Some SyntaxError).
  Proof.
    intros M. induction n as [|n IH]; intros s L text X.
    { destruct s; [|cbn in L; lia]. cbn [scan deliver]. now rewrite bad_inside, M, X. }
    destruct s as [|c t]; [cbn [scan deliver]; now rewrite bad_inside, M, X|]. cbn [length] in L.
    assert (One : deliver bad (if (c =? q)%N then mkSegment first text [q] [q] :: scan quotes multi (Some e) None [] t else scan quotes multi (Some e) (Some (q, first)) (text ++ [c]) t) = ([], Some SyntaxError)).
    { destruct (c =? q)%N; [cbn [deliver]; now rewrite bad_inside, M, X|]. apply IH; [lia|]. now rewrite existsb_lb_app, X. }
    cbn [scan]. destruct t as [|d t']; auto. destruct ((c =? e)%N && (chr_in d quotes || (d =? e)%N)); auto. cbn [length] in L.
    apply IH; [lia|]. rewrite existsb_app, X. reflexivity.
  Qed.
  Lemma bad_unquoted t x : In x (unquoted_segment t) -> bad x = false.
  Proof. destruct t; [intros []|intros [<-|[]]; reflexivity]. Qed.
  Lemma deliver_text t l : deliver bad (unquoted_segment t ++ l) =
    (match t with [] => [] | _ => [([], t, [])] end ++ fst (deliver bad l), snd (deliver bad l)).
  Proof. destruct t as [|c t]; cbn [unquoted_segment app]; [destruct (deliver bad l); reflexivity|]. cbn [deliver]. rewrite (bad_unquoted (c :: t)) by (cbn; auto). destruct (deliver bad l). reflexivity. Qed.
  Lemma pairs_tail a s : pairs_ok (a ++ s) -> pairs_ok s.
  Proof. intros H b x c ->. apply (H (a ++ b) x c). now rewrite <- app_assoc. Qed.
  Lemma pairs_tail1 c s : pairs_ok (c :: s) -> pairs_ok s. Proof. apply (pairs_tail [c]). Qed.

  Notation new m t s := (deliver bad (scan quotes multi (Some e) m t s)).
  Notation del st t s := (scan1 quote_table lb st t false s).

  Lemma agree : forall n s, length s <= n -> pairs_ok s -> forall mode stack text, same mode stack text ->
    snd (del stack text s) = None \/ ~ In e s ->
    new mode text s = (segments_of (shown_mark mode) (fst (del stack text s)) (snd (del stack text s)), snd (del stack text s)).
  Proof.
    induction n as [|n IH]; intros s L P mode stack text Sa H.
    { destruct s; [|cbn in L; lia]. cbn [scan scan1]. destruct mode as [[q first]|]; cbn [shown_mark].
      - destruct Sa as (_ & _ & X). cbn [deliver]. rewrite bad_inside. destruct (chr_in q multi); [|rewrite X by auto]; cbn [negb andb]; destruct text; reflexivity.
      - rewrite <- (app_nil_r (unquoted_segment text)), deliver_text. destruct text; reflexivity. }
    destruct s as [|c t].
    { cbn [scan scan1]. destruct mode as [[q first]|]; cbn [shown_mark].
      - destruct Sa as (_ & _ & X). cbn [deliver]. rewrite bad_inside. destruct (chr_in q multi); [|rewrite X by auto]; cbn [negb andb]; destruct text; reflexivity.
      - rewrite <- (app_nil_r (unquoted_segment text)), deliver_text. destruct text; reflexivity. }
    cbn [length] in L. pose proof (pairs_tail1 c t P) as P1.
    assert (Ht : ~ In e (c :: t) -> ~ In e t) by (intros X Y; apply X; right; exact Y).
    destruct mode as [[q first]|]; cbn [shown_mark].
    - destruct Sa as (Iq & -> & X). cbn [scan1] in *. destruct (N.eqb_spec c e) as [->|Nc].
      + (* the escape *)
        destruct H as [H|H]; [|elim H; cbn; auto].
        destruct t as [|d t']; [discriminate|]. cbn [length] in L.
        cbn [scan1] in *. destruct (P [] d t' eq_refl) as [Ld Md].
        assert (Go : forall b, same (Some (q, first)) [Quote q e (chr_in q multi)] ((text ++ [e]) ++ [d]) -> b = new (Some (q, first)) ((text ++ [e]) ++ [d]) t' ->
          b = (segments_of (Some first) (fst (del [Quote q e (chr_in q multi)] ((text ++ [e]) ++ [d]) t')) (snd (del [Quote q e (chr_in q multi)] ((text ++ [e]) ++ [d]) t')), snd (del [Quote q e (chr_in q multi)] ((text ++ [e]) ++ [d]) t'))).
        { intros b Sb ->. apply (IH t' ltac:(lia) (pairs_tail1 d t' P1) (Some (q, first))); auto. }
        apply Go.
        { split; [exact Iq|]. split; auto. intros M. rewrite existsb_lb_app, existsb_lb_app, X, Elb, Ld by auto. reflexivity. }
        cbn [scan]. rewrite N.eqb_refl. cbn [andb]. destruct (chr_in d quotes || (d =? e)%N) eqn:D; [now rewrite <- app_assoc|].
        apply orb_false_iff in D. destruct D as [D1 D2]. replace (e =? q)%N with false by (symmetry; apply N.eqb_neq; intros ->; auto). cbn [scan].
        replace (d =? q)%N with false by (symmetry; apply N.eqb_neq; intros ->; apply in_app_iff in Iq; destruct Iq as [I|I]; auto; apply chr_in_not in D1; auto).
        destruct t' as [|d' t']; auto. rewrite D2. reflexivity.
      + (* not the escape *)
        assert (Sc : new (Some (q, first)) text (c :: t) = deliver bad (if (c =? q)%N then mkSegment first text [q] [q] :: scan quotes multi (Some e) None [] t else scan quotes multi (Some e) (Some (q, first)) (text ++ [c]) t)).
        { cbn [scan]. destruct t as [|d t']; auto. replace (c =? e)%N with false by (symmetry; now apply N.eqb_neq). reflexivity. }
        rewrite Sc. clear Sc. destruct (N.eqb_spec c q) as [->|Nq].
        * cbn [deliver]. rewrite bad_inside. replace (negb (chr_in q multi) && existsb lb text) with false by (destruct (chr_in q multi); [|rewrite X by auto]; reflexivity).
          specialize (IH t ltac:(lia) P1 None [] [] eq_refl). destruct (del [] [] t) as [l ex] eqn:D. cbn [fst snd] in *.
          rewrite IH; [|destruct H; auto]. reflexivity.
        * destruct (negb (chr_in q multi) && lb c) eqn:B.
          -- apply andb_true_iff in B. destruct B as [M B]. apply negb_true_iff in M. cbn [fst snd]. rewrite (stays_bad q first M (length t) t) by (auto; rewrite existsb_lb_app, B; apply orb_true_r). reflexivity.
          -- apply (IH t ltac:(lia) P1 (Some (q, first))); [|destruct H; auto]. split; [exact Iq|]. split; auto. intros M. rewrite M in B. cbn in B. rewrite existsb_lb_app, X, B by auto. reflexivity.
    - cbn in Sa. subst stack. cbn [scan1] in *. rewrite opens_table in *. destruct (chr_in c marks) eqn:Cm.
      + assert (Nc : c <> e) by (intros ->; apply chr_in_iff in Cm; auto).
        assert (Sc : scan quotes multi (Some e) None text (c :: t) = unquoted_segment text ++ scan quotes multi (Some e) (Some (c, [c])) [] t).
        { cbn [scan]. rewrite Cm. destruct t as [|d t']; auto. replace (c =? e)%N with false by (symmetry; now apply N.eqb_neq). reflexivity. }
        rewrite Sc, deliver_text. clear Sc. specialize (IH t ltac:(lia) P1 (Some (c, [c])) [Quote c e (chr_in c multi)] []).
        destruct (del [Quote c e (chr_in c multi)] [] t) as [l ex] eqn:D. cbn [fst snd] in *.
        rewrite IH; [reflexivity| |destruct H; auto]. split; [now apply chr_in_iff|]. auto.
      + rewrite (reserved_table c Cm) in *. destruct (N.eqb_spec c e) as [->|Nc]; [destruct H as [H|H]; [discriminate|elim H; cbn; auto]|].
        assert (Sc : scan quotes multi (Some e) None text (c :: t) = scan quotes multi (Some e) None (text ++ [c]) t).
        { cbn [scan]. rewrite Cm. destruct t as [|d t']; auto. replace (c =? e)%N with false by (symmetry; now apply N.eqb_neq). reflexivity. }
        rewrite Sc. apply (IH t ltac:(lia) P1 None); [reflexivity|destruct H; auto].
  Qed.

  (** the other direction: outside quotes nothing is lost *)
  Lemma outside_text : forall n s, length s <= n -> forall text, text <> [] -> snd (new None text s) = None ->
    exists t, In ([], text ++ t, []) (fst (new None text s)).
  Proof.
    induction n as [|n IH]; intros s L text T.
    { destruct s; [|cbn in L; lia]. cbn [scan]. rewrite <- (app_nil_r (unquoted_segment text)), deliver_text. intros _. exists []. rewrite app_nil_r. destruct text; [congruence|]. cbn. auto. }
    destruct s as [|c t].
    { cbn [scan]. rewrite <- (app_nil_r (unquoted_segment text)), deliver_text. intros _. exists []. rewrite app_nil_r. destruct text; [congruence|]. cbn. auto. }
    cbn [length] in L.
    assert (Step : forall x r, length r <= n -> snd (new None (text ++ x) r) = None -> exists t0, In ([], text ++ t0, []) (fst (new None (text ++ x) r))).
    { intros x r Lr Hr. destruct (IH r Lr (text ++ x) ltac:(destruct text; [congruence|discriminate]) Hr) as (t0 & I). exists (x ++ t0). now rewrite app_assoc. }
    assert (One : forall b, b = (if chr_in c marks then unquoted_segment text ++ scan quotes multi (Some e) (Some (c, [c])) [] t else scan quotes multi (Some e) None (text ++ [c]) t) ->
      snd (deliver bad b) = None -> exists t0, In ([], text ++ t0, []) (fst (deliver bad b))).
    { intros b ->. destruct (chr_in c marks); [|apply Step; lia]. rewrite deliver_text. intros _. exists []. rewrite app_nil_r. destruct text; [congruence|]. cbn. auto. }
    cbn [scan]. destruct t as [|d t']; [now apply One|]. destruct ((c =? e)%N && (chr_in d quotes || (d =? e)%N)); [apply Step; cbn [length] in L; lia|now apply One].
  Qed.
  Lemma converse : forall n s, length s <= n -> pairs_ok s -> (forall a, s <> a ++ [e]) -> forall mode stack text, same mode stack text ->
    (forall q f, mode = Some (q, f) -> f <> []) -> snd (new mode text s) = None -> (forall t, In ([], t, []) (fst (new mode text s)) -> ~ In e t) ->
    snd (del stack text s) = None.
  Proof.
    induction n as [|n IH]; intros s L P La mode stack text Sa Fi H O.
    { destruct s; [|cbn in L; lia]. reflexivity. }
    destruct s as [|c t]; [reflexivity|]. cbn [length] in L. pose proof (pairs_tail1 c t P) as P1.
    assert (La1 : forall a, t <> a ++ [e]) by (intros a ->; exact (La (c :: a) eq_refl)).
    destruct mode as [[q first]|].
    - destruct Sa as (Iq & -> & X). cbn [scan1]. destruct (N.eqb_spec c e) as [->|Nc].
      + destruct t as [|d t']; [elim (La [] eq_refl)|]. cbn [scan1]. cbn [length] in L. destruct (P [] d t' eq_refl) as [Ld Md].
        assert (Sc : scan quotes multi (Some e) (Some (q, first)) text (e :: d :: t') = scan quotes multi (Some e) (Some (q, first)) ((text ++ [e]) ++ [d]) t').
        { cbn [scan]. rewrite N.eqb_refl. cbn [andb]. destruct (chr_in d quotes || (d =? e)%N) eqn:D; [now rewrite <- app_assoc|].
          apply orb_false_iff in D. destruct D as [D1 D2]. replace (e =? q)%N with false by (symmetry; apply N.eqb_neq; intros ->; auto). cbn [scan].
          replace (d =? q)%N with false by (symmetry; apply N.eqb_neq; intros ->; apply in_app_iff in Iq; destruct Iq as [I|I]; auto; apply chr_in_not in D1; auto).
          destruct t' as [|d' t']; auto. rewrite D2. reflexivity. }
        rewrite Sc in H, O. apply (IH t' ltac:(lia) (pairs_tail1 d t' P1) ltac:(intros a ->; exact (La1 (d :: a) eq_refl)) (Some (q, first))); auto.
        split; [exact Iq|]. split; auto. intros M. rewrite existsb_lb_app, existsb_lb_app, X, Elb, Ld by auto. reflexivity.
      + assert (Sc : new (Some (q, first)) text (c :: t) = deliver bad (if (c =? q)%N then mkSegment first text [q] [q] :: scan quotes multi (Some e) None [] t else scan quotes multi (Some e) (Some (q, first)) (text ++ [c]) t)).
        { cbn [scan]. destruct t as [|d t']; auto. replace (c =? e)%N with false by (symmetry; now apply N.eqb_neq). reflexivity. }
        rewrite Sc in H, O. clear Sc. destruct (N.eqb_spec c q) as [->|Nq].
        * cbn [deliver] in H, O. destruct (bad _); [discriminate|]. destruct (new None [] t) as [y ye] eqn:D. cbn [fst snd] in H, O.
          assert (G : snd (del [] [] t) = None); [|destruct (del [] [] t); exact G].
          apply (IH t ltac:(lia) P1 La1 None); [reflexivity|discriminate|now rewrite D|]. rewrite D. cbn [fst]. intros t0 I. apply O. right. exact I.
        * destruct (negb (chr_in q multi) && lb c) eqn:B.
          -- apply andb_true_iff in B. destruct B as [M B]. apply negb_true_iff in M. rewrite (stays_bad q first M (length t) t) in H by (auto; rewrite existsb_lb_app, B; apply orb_true_r). discriminate.
          -- apply (IH t ltac:(lia) P1 La1 (Some (q, first))); auto. split; [exact Iq|]. split; auto. intros M. rewrite M in B. cbn in B. rewrite existsb_lb_app, X, B by auto. reflexivity.
    - cbn in Sa. subst stack. cbn [scan1]. rewrite opens_table. destruct (chr_in c marks) eqn:Cm.
      + assert (Nc : c <> e) by (intros ->; apply chr_in_iff in Cm; auto).
        assert (Sc : scan quotes multi (Some e) None text (c :: t) = unquoted_segment text ++ scan quotes multi (Some e) (Some (c, [c])) [] t).
        { cbn [scan]. rewrite Cm. destruct t as [|d t']; auto. replace (c =? e)%N with false by (symmetry; now apply N.eqb_neq). reflexivity. }
        rewrite Sc, deliver_text in H, O. clear Sc. cbn [fst snd] in H, O.
        assert (G : snd (del [Quote c e (chr_in c multi)] [] t) = None); [|destruct (del [Quote c e (chr_in c multi)] [] t); exact G].
        apply (IH t ltac:(lia) P1 La1 (Some (c, [c]))); [|intros q f [= <- <-]; discriminate|exact H|intros t0 I; apply O, in_app_iff; auto].
        split; [now apply chr_in_iff|]. auto.
      + rewrite (reserved_table c Cm). destruct (N.eqb_spec c e) as [->|Nc].
        * exfalso. assert (X : exists x r, length r <= n /\ scan quotes multi (Some e) None text (e :: t) = scan quotes multi (Some e) None (text ++ e :: x) r).
          { cbn [scan]. rewrite Cm, N.eqb_refl. destruct t as [|d t']; [exists [], []; cbn; split; [lia|reflexivity]|]. cbn [andb length] in *. destruct (chr_in d quotes || (d =? e)%N).
            - exists [d], t'. split; [lia|reflexivity]. - exists [], (d :: t'). split; [cbn; lia|reflexivity]. }
          destruct X as (x & r & Lr & E). rewrite E in H, O.
          destruct (outside_text n r Lr (text ++ e :: x) ltac:(destruct text; discriminate) H) as (t0 & I). apply (O _ I). rewrite !in_app_iff. cbn. auto.
        * assert (Sc : scan quotes multi (Some e) None text (c :: t) = scan quotes multi (Some e) None (text ++ [c]) t).
          { cbn [scan]. rewrite Cm. destruct t as [|d t']; auto. replace (c =? e)%N with false by (symmetry; now apply N.eqb_neq). reflexivity. }
          rewrite Sc in H, O. apply (IH t ltac:(lia) P1 La1 None); [reflexivity|discriminate|exact H|exact O].
  Qed.
End Agree.
