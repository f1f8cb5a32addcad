(** split_delimiters with quoting delimiters of any length: no text is lost, and none is
    repeated unless a token is passed over. *)
From Verif Require Import DelimModel DelimSpec SplitSpec SplitProof SplitProof2 SplitProof3 SplitProps PyStrProof DelimProof DelimProof2 DelimProof3 DelimProof4 DelimProof5.

Lemma subseq_refl (s : str) : subseq s s. Proof. induction s; constructor; auto. Qed.
Lemma subseq_app (a b c d : str) : subseq a b -> subseq c d -> subseq (a ++ c) (b ++ d).
Proof. induction 1; intros K; cbn; auto; constructor; auto. Qed.
Lemma subseq_pre (a b c : str) : subseq a b -> subseq a (c ++ b).
Proof. intros H. induction c; cbn; auto. now constructor. Qed.
Lemma subseq_nil (b : str) : subseq [] b. Proof. induction b; constructor; auto. Qed.
Lemma subseq_firstn (s : str) j k : j <= k -> subseq (firstn j s) (firstn k s).
Proof. revert j k. induction s as [|c s IH]; intros [|j] [|k] L; cbn; try apply subseq_nil; [lia|]. constructor. apply IH. lia. Qed.

Lemma flat_mid l1 x w l2 y : flat (l1 ++ (x, w) :: l2) y = flat l1 x ++ w ++ flat l2 y.
Proof. induction l1 as [|[a b] l1 IH]; cbn [app]; [now rewrite flat_cons, flat_nil|]. now rewrite !flat_cons, IH, <- !app_assoc. Qed.

Section Table.
  Context (is_bytes : bool) (table : delimiters) (OK : table_ok table).
  Notation loop := (delimiter_loop is_bytes table).
  Notation corr := (corr table).
  Notation in_table := (in_table table).
  Definition never_flushed (w : str) : Prop := forall cur, in_table cur -> lookup is_bytes table cur w <> Flush.
  Definition kept2 (NF : Prop) (buffer : list str) (l : list (str * str)) (y : str) (consumed : nat) (ys : list triple) (r : outcome) : Prop :=
    match r with
    | Raised _ => True
    | Finished b e => concat buffer ++ flat l y = joined ys ++ concat b
    | Resplit c st b e n => exists j k, n = consumed + j /\ j <= k /\ k <= length (flat l y) /\ concat buffer ++ firstn k (flat l y) = joined ys ++ concat b /\ (NF -> j = k)
    end.
  Lemma kept2_step (NF : Prop) x w l y buffer consumed consumed' ys r b0 pre : concat buffer ++ x ++ w = joined pre ++ concat b0 ->
    consumed <= consumed' <= consumed + length x + length w -> (NF -> consumed' = consumed + length x + length w) ->
    kept2 NF b0 l y consumed' ys r -> kept2 NF buffer ((x, w) :: l) y consumed (pre ++ ys) r.
  Proof.
    intros E Lc Ec K. destruct r as [b e|e|c st b e n]; cbn [kept2] in *; auto.
    - rewrite flat_cons, joined_app, <- app_assoc, <- K, app_assoc, app_assoc. rewrite <- (app_assoc (concat buffer)), E, <- app_assoc. reflexivity.
    - destruct K as (j & k & -> & Le & L & K & Nf). exists (consumed' - consumed + j), (length x + length w + k). split; [lia|]. rewrite flat_cons, !app_length. split; [lia|]. split; [lia|]. split.
      + rewrite joined_app, <- app_assoc, <- K. rewrite (app_assoc x w), firstn_app, app_length. rewrite firstn_all2 by (rewrite app_length; lia).
        replace (length x + length w + k - (length x + length w)) with k by lia.
        rewrite app_assoc, E, <- app_assoc. reflexivity.
      + intros H. specialize (Ec H). specialize (Nf H). lia.
  Qed.
  Lemma firstn_exact (a b c : str) : firstn (length a + length b) (a ++ b ++ c) = a ++ b.
  Proof. rewrite app_assoc, firstn_app, app_length, Nat.sub_diag. cbn [firstn]. rewrite app_nil_r. apply firstn_all2. rewrite app_length. lia. Qed.
  Lemma loop_join2 (NF : Prop) l y : Forall (fun p : str * str => In (snd p) (all_tokens is_bytes table)) l ->
    (NF -> Forall (fun p : str * str => never_flushed (snd p)) l) -> forall cur stack ks buffer escaped consumed ys r,
    corr cur stack ks -> loop (as_pairs l y) cur stack buffer escaped consumed = (ys, r) -> kept2 NF buffer l y consumed ys r.
  Proof.
    induction 1 as [|[x w] l Hw Fl IH]; intros HNF cur stack ks buffer escaped consumed ys r C E.
    - unfold as_pairs in E. cbn [map app delimiter_loop is_nil negb andb] in E. rewrite andb_true_r in E. destruct (is_nil y) eqn:Y.
      + apply is_nil_iff in Y. subst y. injection E as <- <-. cbn [kept2]. now rewrite flat_nil, app_nil_r.
      + rewrite andb_false_r in E. injection E as <- <-. cbn [kept2]. now rewrite flat_nil, concat_snoc.
    - assert (IH' := IH (fun h => Forall_inv_tail (HNF h))). clear IH. assert (NFw : NF -> never_flushed w) by (intros h; exact (Forall_inv (HNF h))).
      assert (Eap : as_pairs ((x, w) :: l) y = Two x w :: as_pairs l y) by reflexivity. rewrite Eap in E. cbn [delimiter_loop] in E.
      cbn [snd] in Hw. pose proof (tokens_nonempty is_bytes table OK) as TN. rewrite Forall_forall in TN. pose proof (TN w Hw) as NW.
      assert (Zw : is_nil w = false) by (now apply is_nil_false). rewrite Zw, andb_false_r in E.
      destruct (negb (is_nil escaped) && is_nil x) eqn:Esc.
      + apply andb_true_iff in Esc as [_ Ex]. apply is_nil_iff in Ex. subst x. destruct (length w =? 1) eqn:L1.
        * apply Nat.eqb_eq in L1. apply (kept2_step NF [] w l y buffer consumed (consumed + 1) ys r (buffer ++ [w]) []); cbn [length app]; [now rewrite concat_snoc|lia|lia|].
          eapply IH'; eauto.
        * injection E as <- <-. cbn [kept2]. exists 1, 1. destruct w as [|c w]; [congruence|]. rewrite flat_cons. cbn [app firstn length].
          repeat split; auto; [lia|]. rewrite concat_snoc. reflexivity.
      + cbv zeta in E.
        pose proof (lookup_has_shape is_bytes table OK cur w (corr_in_table _ _ _ _ C)) as S. pose proof (corr_in_table _ _ _ _ C) as IT.
        assert (Nf : NF -> lookup is_bytes table cur w <> Flush) by (intros h; now apply NFw).
        destruct S as [d G T|d Ec Et|d Ec N Et|_|d Ec Q M I|H|d Ec Q N1 N2 Sh|d s Ec Hs Ns W].
        * destruct (loop (as_pairs l y) _ _ _ _ _) as [y' r'] eqn:E'. injection E as <- <-.
          apply (kept2_step NF x w l y buffer consumed (consumed + length x + length w) y' r' [] [(concat (buffer ++ [x]), w, [])]); [|lia|lia|].
          -- rewrite joined_cons, concat_snoc. cbn [concat joined map]. now rewrite !app_nil_r, <- app_assoc.
          -- eapply IH'; [|exact E']. eapply corr_push; eauto.
        * subst cur. destruct (corr_pop _ _ _ _ C) as (k & ks' & c & st & -> & -> & C' & Kc & Nd).
          destruct (loop (as_pairs l y) _ _ _ _ _) as [y' r'] eqn:E'. injection E as <- <-.
          apply (kept2_step NF x w l y buffer consumed (consumed + length x + length w) y' r' [] [(concat (buffer ++ [x]), [], w)]); [|lia|lia|].
          -- rewrite joined_cons, concat_snoc. cbn [concat joined map app]. now rewrite !app_nil_r, <- app_assoc.
          -- eapply IH'; [|exact E']. eauto.
        * apply (kept2_step NF x w l y buffer consumed (consumed + length x + length w) ys r ((buffer ++ [x]) ++ [w]) []); [|lia|lia|].
          -- cbn [joined map concat app]. now rewrite !concat_snoc, <- app_assoc.
          -- eapply IH'; [|exact E]. eauto.
        * injection E as <- <-. exact Logic.I.
        * injection E as <- <-. exact Logic.I.
        * apply (kept2_step NF x w l y buffer consumed (consumed + length x) ys r ((buffer ++ [x]) ++ [w]) []); [|lia| |].
          -- cbn [joined map concat app]. now rewrite !concat_snoc, <- app_assoc.
          -- intros h. exfalso. exact (Nf h eq_refl).
          -- eapply IH'; [|exact E]. eauto.
        * injection E as <- <-. cbn [kept2]. destruct w as [|c w]; [congruence|]. exists (length x + 1), (length x + 1). rewrite flat_cons, !app_length. cbn [length firstn].
          repeat split; auto; [lia|lia|]. cbn [joined map concat app]. rewrite !concat_snoc.
          change (c :: w ++ flat l y) with ([c] ++ w ++ flat l y). replace (length x + 1) with (length x + length [c]) by reflexivity. rewrite firstn_exact. now rewrite app_assoc.
        * subst cur. destruct (starts_with_app s w W) as [rst ->]. destruct (lookup_truncated is_bytes table OK d s IT Hs) as [[Ep Es]|Ep]; rewrite Ep in E.
          -- destruct (corr_pop _ _ _ _ C) as (k & ks' & c & st & -> & -> & C' & Kc & Nd). injection E as <- <-. cbn [kept2].
             exists (length x + length s), (length x + length s). rewrite flat_cons, !app_length. repeat split; auto; [lia|lia|].
             rewrite joined_cons, concat_snoc. cbn [concat joined map app]. rewrite !app_nil_r. rewrite <- (app_assoc s), firstn_exact. now rewrite <- app_assoc.
          -- injection E as <- <-. cbn [kept2]. exists (length x + length s), (length x + length s). rewrite flat_cons, !app_length. repeat split; auto; [lia|lia|].
             rewrite !concat_snoc. cbn [concat joined map app]. rewrite <- (app_assoc s), firstn_exact. now rewrite <- app_assoc.
  Qed.
  Lemma run_join2 (NF : Prop) text : (NF -> forall w, In w (all_tokens is_bytes table) -> (exists a b, text = a ++ w ++ b) -> never_flushed w) ->
    forall fuel cur stack ks buffer escaped consumed ys, corr cur stack ks -> consumed <= length text ->
    delimiter_run is_bytes table text fuel cur stack buffer escaped consumed = (ys, None) ->
    exists X, joined ys = concat buffer ++ X /\ subseq (skipn consumed text) X /\ (NF -> X = skipn consumed text).
  Proof.
    intros HNF. induction fuel as [|fuel IH]; intros cur stack ks buffer escaped consumed ys C Le E; [discriminate|]. cbn [delimiter_run] in E.
    destruct (C32_multisplit_is_the_split (skipn consumed text) (Some (all_tokens is_bytes table)) AsPairs (Some (-1)%Z) false true) as (l & y & Sp & Em);
      [split; [apply tokens_nonnil; auto|apply tokens_nonempty; auto]|].
    rewrite Em in E. clear Em. cbn in Sp. change (map (fun p : str * str => Two (fst p) (snd p)) l ++ [Two y []]) with (as_pairs l y) in E.
    destruct (loop (as_pairs l y) cur stack buffer escaped consumed) as [ys0 r] eqn:El.
    pose proof (splits_flat _ _ _ _ _ _ Sp) as Fl.
    assert (NFl : NF -> Forall (fun p : str * str => never_flushed (snd p)) l).
    { intros h. apply Forall_forall. intros [x w] I. cbn [snd]. pose proof (splits_in_seps _ _ _ _ Sp) as Is. rewrite Forall_forall in Is. apply (HNF h _ (Is _ I)). cbn [snd].
      apply in_split in I as (l1 & l2 & ->). exists (firstn consumed text ++ flat l1 x), (flat l2 y). rewrite <- app_assoc. rewrite <- (firstn_skipn consumed text) at 1. f_equal. rewrite <- Fl.
      apply flat_mid. }
    pose proof (loop_join2 NF l y (splits_in_seps _ _ _ _ Sp) NFl _ _ _ _ _ _ _ _ C El) as K.
    destruct (loop_spec is_bytes table OK l y (splits_toks_nonempty _ _ _ _ (tokens_nonempty _ _ OK) Sp) _ _ _ _ _ _ _ _ C El) as (ks' & R & A).
    destruct r as [b e|e|c st b e n]; cbn [kept2 after] in K, A; rewrite ?Fl in K; [|discriminate|].
    - exists (skipn consumed text). split; [|split; [apply subseq_refl|auto]]. rewrite K.
      destruct b as [|b0 b]; [cbn [is_nil] in E; injection E as <-; cbn; now rewrite app_nil_r|]. cbn [is_nil] in E.
      destruct (negb (is_nil e)); [discriminate|]. destruct (concat (b0 :: b)) eqn:CB; cbn [is_nil] in E; injection E as <-; [now rewrite app_nil_r|].
      rewrite joined_app, joined_cons. cbn [app joined map concat]. now rewrite !app_nil_r.
    - destruct K as (j & k & -> & Lj & L & K & Ex). destruct (delimiter_run is_bytes table text fuel c st b e (consumed + j)) as [ys' e'] eqn:E'. injection E as <- ->.
      rewrite skipn_length in L. destruct (IH c st ks' b e (consumed + j) ys' (proj1 A) ltac:(lia) E') as (X & EX & SX & NX).
      exists (firstn k (skipn consumed text) ++ X). split; [|split].
      + rewrite joined_app, EX, app_assoc, <- K, <- app_assoc. reflexivity.
      + rewrite <- (firstn_skipn j (skipn consumed text)) at 1. rewrite skipn_plus. apply subseq_app; [apply subseq_firstn; exact Lj|exact SX].
      + intros h. rewrite (NX h). rewrite <- (firstn_skipn j (skipn consumed text)) at 2. rewrite skipn_plus. now rewrite (Ex h).
  Qed.

  (** which tokens are never passed over *)
  Lemma token_loop_shared cs t l : shares_characters t cs = true -> ~ In t l -> l <> [] -> forall old, token_loop true cs l t old <> Flush.
  Proof.
    intros Sh N NN. assert (G : forall old, (old <> Flush \/ l <> []) -> token_loop true cs l t old <> Flush); [|auto]. clear NN.
    induction l as [|s l IH]; intros old H; cbn [token_loop]; [destruct H; [auto|congruence]|].
    destruct (str_eqb t s) eqn:E; [apply str_eqb_iff in E; subst; exfalso; apply N; now left|].
    destruct (starts_with s t); [discriminate|]. rewrite Sh. cbn [andb]. apply IH; [intros I; apply N; now right|left; discriminate].
  Qed.
  Lemma shared_never_flushed w : In w (delimiter_tokens table) -> (forall k d, In (k, d) table -> d_quoting d = true -> shares_characters w (d_close d ++ d_escape d) = true) -> never_flushed w.
  Proof.
    intros I Sh cur IT. assert (J : str_in w (delimiter_tokens table) = true) by now apply str_in_iff.
    destruct cur as [d|]; cbn [lookup].
    - destruct IT as [k IT]. destruct (d_quoting d) eqn:Q.
      + destruct (negb (is_nil (d_escape d)) && str_eqb w (d_escape d)) eqn:Ee; [discriminate|]. destruct (str_eqb w (d_close d)) eqn:Ec; [discriminate|].
        destruct (true && negb (d_multiline d) && str_in w (newlines_of is_bytes table)); [discriminate|].
        assert (str_in w (all_tokens is_bytes table) = true) as -> by (apply str_in_iff; unfold all_tokens; apply in_app_iff; auto).
        assert (NE : is_nil (d_escape d) = false) by (apply is_nil_false, (ok_quoting _ OK k d IT); exact Q). rewrite NE in *. cbn [negb andb] in Ee.
        apply token_loop_shared; [eauto| |discriminate]. cbn [In]. intros [H|[H|[]]]; subst w; now rewrite str_eqb_refl in *.
      + unfold push_or. destruct (get table w); [discriminate|]. rewrite J. destruct (negb (is_nil (d_escape d)) && str_eqb w (d_escape d)); [discriminate|]. destruct (str_eqb w (d_close d)); [discriminate|].
        cbn [andb]. destruct (str_in w (all_tokens is_bytes table)); [|discriminate].
        match goal with |- token_loop false ?cs ?l w Illegal <> _ => generalize cs; intros cs0; assert (G : forall l0 old, old <> Flush -> token_loop false cs0 l0 w old <> Flush); [|apply G; discriminate] end.
        induction l0 as [|s l0 IHl]; intros old H; cbn [token_loop]; auto. destruct (str_eqb w s); auto. destruct (starts_with s w); [discriminate|]. cbn [andb]. auto.
    - unfold push_or. destruct (get table w); [discriminate|]. rewrite J. discriminate.
  Qed.
End Table.
