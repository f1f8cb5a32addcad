(** The old split_quoted_strings against its specification (lemmas for C92). *)
From Verif Require Import DeprModel DeprSpec PyStrProof DelimProof LinesProof DeprProof.

Section Q.
  Context (quotes : list str) (triple_quotes : bool) (backslash : str).
  Definition quote_chr (c : chr) : Prop := In [c] quotes.
  Definition escape_chr (c : chr) : Prop := backslash = [c].
  Notation loop := (old_loop quotes triple_quotes backslash).
  Notation stops := (stops escape_chr).
  Notation never_stops := (never_stops escape_chr).
  Notation segs := (quoted_segments quote_chr triple_quotes escape_chr).

  Lemma is_quote_iff c : is_quote quotes c = true <-> quote_chr c.
  Proof.
    unfold is_quote, quote_chr. rewrite existsb_exists. split; [intros (w & I & E); apply eqb_one in E; now subst|]. intros I. exists [c]. split; auto. now apply eqb_one.
  Qed.
  Lemma is_quote_false c : is_quote quotes c = false <-> ~ quote_chr c.
  Proof. rewrite <- is_quote_iff. destruct (is_quote quotes c); split; congruence. Qed.
  Definition mark_of (tr : bool) (q : chr) : str := if tr then [q; q; q] else [q].
  Lemma starts_dec w s : {starts w s} + {~ starts w s}.
  Proof. destruct (starts_with w s) eqn:E; [left; now apply starts_with_iff|right]. intros H. apply starts_with_iff in H. congruence. Qed.

  Lemma loop_escape e c s text q tr : escape_chr e -> loop (e :: c :: s) text (Some q) tr false = loop s (text ++ [e; c]) (Some q) tr false.
  Proof. intros E. cbn [old_loop]. assert (str_eqb [e] backslash = true) as -> by (apply eqb_one; exact E). now rewrite <- app_assoc. Qed.
  Lemma loop_inside c s text q tr : ~ escape_chr c -> ~ starts (mark_of tr q) (c :: s) -> loop (c :: s) text (Some q) tr false = loop s (text ++ [c]) (Some q) tr false.
  Proof.
    intros E N. cbn [old_loop]. assert (str_eqb [c] backslash = false) as -> by (apply not_true_iff_false; rewrite eqb_one; exact E).
    destruct (c =? q)%N eqn:C; cbn [negb]; auto. apply N.eqb_eq in C. subst q. destruct tr; cbn [negb mark_of] in *; [|exfalso; apply N; now exists s].
    destruct s as [|c2 [|c3 s]]; auto. destruct ((c =? c2)%N && (c2 =? c3)%N) eqn:X; auto. apply andb_true_iff in X. rewrite !N.eqb_eq in X. destruct X as [-> ->]. exfalso. apply N. now exists s.
  Qed.
  Lemma loop_closes s text q tr : ~ escape_chr q -> loop (mark_of tr q ++ s) text (Some q) tr false = yield_ (true, text ++ mark_of tr q) (loop s [] None false false).
  Proof.
    intros E. destruct tr; cbn [mark_of app old_loop]; assert (str_eqb [q] backslash = false) as -> by (apply not_true_iff_false; rewrite eqb_one; exact E); rewrite !N.eqb_refl; reflexivity.
  Qed.
  Lemma loop_stops q tr s body rest : stops (mark_of tr q) s body rest -> forall text, loop s text (Some q) tr false = yield_ (true, text ++ body ++ mark_of tr q) (loop rest [] None false false).
  Proof.
    induction 1 as [rest H|e c s body rest E H IH|c s body rest E N H IH]; intros text.
    - cbn [app]. apply loop_closes. destruct tr; eapply H; reflexivity.
    - rewrite loop_escape by auto. rewrite IH. now rewrite <- !app_assoc.
    - rewrite loop_inside by auto. rewrite IH. now rewrite <- !app_assoc.
  Qed.
  Lemma loop_never q tr s : never_stops (mark_of tr q) s -> forall text, text <> [] -> loop s text (Some q) tr false = ([(true, text ++ s)], None).
  Proof.
    induction 1 as [|e E|e c s E H IH|c s E N H IH]; intros text T.
    - cbn [old_loop]. rewrite app_nil_r. destruct text; [congruence|reflexivity].
    - cbn [old_loop]. assert (str_eqb [e] backslash = true) as -> by (apply eqb_one; exact E). destruct (is_nil (text ++ [e])) eqn:X; auto. apply is_nil_iff in X. now destruct text.
    - rewrite loop_escape by auto. rewrite IH by (destruct text; discriminate). now rewrite <- app_assoc.
    - rewrite loop_inside by auto. rewrite IH by (destruct text; discriminate). now rewrite <- app_assoc.
  Qed.
  Lemma stops_total (w s : str) : w <> [] -> (exists body rest, stops w s body rest /\ length rest < length s) \/ never_stops w s.
  Proof.
    intros W. remember (length s) as n. revert s Heqn. induction n as [n IH] using lt_wf_ind. intros s ->. destruct s as [|c s]; [right; constructor|].
    destruct (str_eqb [c] backslash) eqn:E.
    - apply eqb_one in E. destruct s as [|d s]; [right; now constructor|]. destruct (IH (length s) ltac:(cbn; lia) s eq_refl) as [(b & r & H & L)|H].
      + left. exists (c :: d :: b), r. split; [now constructor|cbn; lia].
      + right. now constructor.
    - assert (NE : ~ escape_chr c) by (unfold escape_chr; rewrite <- eqb_one; congruence).
      destruct (starts_dec w (c :: s)) as [[r R]|N].
      + left. exists [], r. rewrite R. split; [|rewrite app_length; destruct w; [congruence|cbn; lia]]. constructor. intros c' t ->. injection R as <- _. exact NE.
      + destruct (IH (length s) ltac:(cbn; lia) s eq_refl) as [(b & r & H & L)|H].
        * left. exists (c :: b), r. split; [now constructor|cbn; lia].
        * right. now apply never_char.
  Qed.

  Lemma loop_plain_text p : (forall c, In c p -> ~ quote_chr c) -> forall s text, loop (p ++ s) text None false false = loop s (text ++ p) None false false.
  Proof.
    induction p as [|c p IH]; intros H s text; [now rewrite app_nil_r|]. cbn [app old_loop]. assert (is_quote quotes c = false) as -> by (apply is_quote_false; apply H; now left). cbn [negb].
    rewrite IH by (intros; apply H; now right). now rewrite <- app_assoc.
  Qed.
  Lemma loop_opens s mark rest text : opens quote_chr triple_quotes s mark rest -> exists q tr, mark = mark_of tr q /\ loop s text None false false = flush_text text (loop rest mark (Some q) tr false).
  Proof.
    intros (q & Q & -> & M). apply is_quote_iff in Q. exists q. destruct triple_quotes eqn:T.
    - destruct M as [->|(-> & N1 & N2)].
      + exists true. split; auto. cbn [app old_loop]. rewrite Q. cbn [negb]. now rewrite N.eqb_refl.
      + exists false. split; auto. destruct rest as [|c2 rest]; [congruence|]. cbn [app old_loop]. rewrite Q. cbn [negb]. destruct (c2 =? q)%N eqn:C; [apply N.eqb_eq in C; subst; exfalso; apply N2; now exists rest|]. reflexivity.
    - subst mark. exists false. split; auto. cbn [app old_loop]. rewrite Q. reflexivity.
  Qed.
  Lemma flush_nil g : flush_text [] g = g. Proof. reflexivity. Qed.
  Lemma flush_cons p g : p <> [] -> flush_text p g = ((false, p) :: fst g, snd g). Proof. destruct p; [congruence|reflexivity]. Qed.

  Lemma loop_segs s l e : segs s l e -> loop s [] None false false = (l, e) /\
    ((forall c t, s = c :: t -> quote_chr c) -> e = None \/ l <> [] -> forall text, loop s text None false false = flush_text text (l, e)).
  Proof.
    induction 1 as [|p s l e P1 P2 P3 H IH D|s mark s' body rest l e O H1 H2 [IH _]|s mark s' O H1|q s l e T Q N H [IH _]|p q T Q P].
    - split; [reflexivity|]. intros _ _ text. cbn [old_loop]. unfold flush_text. destruct (is_nil text); reflexivity.
    - destruct IH as [_ IH]. split.
      + rewrite loop_plain_text by auto. cbn [app]. rewrite IH by auto. now apply flush_cons.
      + intros F. exfalso. destruct p as [|c p]; [congruence|]. apply (P2 c); [now left|]. apply (F c (p ++ s)). reflexivity.
    - assert (A : forall text, loop s text None false false = flush_text text ((true, mark ++ body ++ mark) :: l, e)).
      { intros text. destruct (loop_opens s mark s' text O) as (q & tr & -> & ->). rewrite (loop_stops _ _ _ _ _ H1), IH. reflexivity. }
      split; [apply (A [])|intros _ _; exact A].
    - assert (A : forall text, loop s text None false false = flush_text text ([(true, s)], None)).
      { intros text. destruct (loop_opens s mark s' text O) as (q & tr & E & ->). rewrite E in H1. rewrite (loop_never _ _ _ H1). 2: { rewrite E. now destruct tr. } destruct O as (? & _ & -> & _). reflexivity. }
      split; [apply (A [])|intros _ _; exact A].
    - assert (A : forall text, loop (q :: q :: s) text None false false = flush_text text ((true, [q; q]) :: l, e)).
      { intros text. assert (U : loop (q :: q :: s) text None false false = flush_text text (yield_ (true, [q; q]) (loop s [] None false false))); [|now rewrite U, IH].
        destruct s as [|c3 s]; cbn [old_loop]; rewrite (proj2 (is_quote_iff q) Q), T; cbn [negb]; rewrite N.eqb_refl; [reflexivity|].
        destruct (c3 =? q)%N eqn:C; [apply N.eqb_eq in C; subst; exfalso; apply N; now exists s|]. reflexivity. }
      split; [apply (A [])|intros _ _; exact A].
    - split.
      + rewrite loop_plain_text by auto. cbn [old_loop]. now rewrite (proj2 (is_quote_iff q) Q), T.
      + intros _ [F|F]; congruence.
  Qed.
  Lemma segs_total s : exists l e, segs s l e.
  Proof.
    remember (length s) as n. revert s Heqn. induction n as [n IH] using lt_wf_ind. intros s ->.
    assert (Marked : forall q t, quote_chr q -> length (q :: t) <= length s -> exists l e, segs (q :: t) l e).
    { intros q t Q L.
      assert (Go : forall mark t', opens quote_chr triple_quotes (q :: t) mark t' -> exists l e, segs (q :: t) l e).
      { intros mark t' O. assert (M : mark <> []) by (destruct O as (q' & _ & _ & O); destruct triple_quotes; [destruct O as [->|[-> _]]|subst]; discriminate).
        assert (length t' < length (q :: t)) by (destruct O as (q' & _ & -> & _); rewrite app_length; destruct mark; [congruence|cbn; lia]).
        destruct (stops_total mark t' M) as [(b & r & H' & Lr)|H'].
        - destruct (IH (length r) ltac:(lia) r eq_refl) as (l & e & Hr). exists ((true, mark ++ b ++ mark) :: l), e. eapply seg_quoted; eauto.
        - do 2 eexists. eapply seg_open; eauto. }
      destruct triple_quotes eqn:T; [|apply (Go [q] t); exists q; split; auto].
      destruct t as [|c2 t]; [exists [], (Some RuntimeError); apply (seg_fails _ _ _ [] q); auto; intros ? []|].
      destruct (N.eq_dec c2 q) as [->|N].
      2: { apply (Go [q] (c2 :: t)). exists q. split; auto. split; auto. right. split; auto. split; [discriminate|]. intros [r R]. injection R as R _. congruence. }
      destruct (starts_dec [q] t) as [[r ->]|N].
      - apply (Go [q; q; q] r). exists q. split; auto.
      - destruct (IH (length t) ltac:(cbn in L; lia) t eq_refl) as (l & e & H). exists ((true, [q; q]) :: l), e. apply seg_two; auto. }
    assert (Sp : exists p t, s = p ++ t /\ (forall c, In c p -> ~ quote_chr c) /\ (forall c t', t = c :: t' -> quote_chr c)).
    { clear. induction s as [|c s (p & t & -> & A & B)]; [exists [], []; split; auto; split; [intros ? []|discriminate]|].
      destruct (is_quote quotes c) eqn:E.
      - exists [], (c :: p ++ t). split; auto. split; [intros ? []|]. intros c' t' [= <- _]. now apply is_quote_iff.
      - exists (c :: p), t. split; auto. split; auto. intros x [<-|I]; auto. now apply is_quote_false. }
    destruct Sp as (p & t & -> & P & T). destruct t as [|q t].
    - rewrite app_nil_r. destruct p as [|c p]; [exists [], None; constructor|]. exists [(false, c :: p)], None. rewrite <- (app_nil_r (c :: p)) at 1. apply seg_plain; auto; try discriminate. constructor.
    - assert (Q : quote_chr q) by (eapply T; reflexivity). destruct (Marked q t Q) as (l & e & H); [rewrite app_length; cbn; lia|].
      destruct p as [|c p]; [cbn [app]; eauto|].
      destruct l as [|x l]; [|exists ((false, c :: p) :: x :: l), e; apply seg_plain; auto; [discriminate|right; discriminate]].
      destruct e as [e|]; [|exists [(false, c :: p)], None; apply seg_plain; auto; discriminate].
      inversion H as [| | | | |p' q' Tq Qq Pq Eq]; subst. destruct p' as [|c' p'].
      + injection Eq as <- <-. exists [], (Some RuntimeError). now apply seg_fails.
      + exfalso. injection Eq as -> _. apply (Pq q); [now left|exact Q].
  Qed.
  (** joining the segments gives s *)
  Lemma stops_text w s body rest : stops w s body rest -> s = body ++ w ++ rest.
  Proof. induction 1; cbn; congruence. Qed.
  Lemma segs_text s l e : segs s l e -> e = None -> concat (map snd l) = s.
  Proof.
    induction 1 as [|p s l e P1 P2 P3 H IH D|s mark s' body rest l e O H1 H2 IH|s mark s' O H1|q s l e T Q N H IH|p q T Q P]; intros E; cbn; rewrite ?app_nil_r; auto; try (now rewrite IH); try discriminate.
    rewrite IH by auto. apply stops_text in H1. destruct O as (q & _ & -> & _). rewrite H1. now rewrite <- !app_assoc.
  Qed.
End Q.
