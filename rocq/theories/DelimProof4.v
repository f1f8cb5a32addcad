(** split_delimiters: the text is preserved. *)
From Verif Require Import DelimModel DelimSpec SplitSpec SplitProof SplitProof2 SplitProof3 SplitProps PyStrProof DelimProof DelimProof2 DelimProof3.

Definition joined (l : list triple) : str := concat (map (fun p => fst (fst p) ++ snd (fst p) ++ snd p) l).
Lemma joined_cons a b c l : joined ((a, b, c) :: l) = a ++ b ++ c ++ joined l.
Proof. unfold joined. cbn. now rewrite <- !app_assoc. Qed.
Lemma joined_app a b : joined (a ++ b) = joined a ++ joined b.
Proof. unfold joined. now rewrite map_app, concat_app. Qed.
Lemma starts_with_app s t : starts_with s t = true -> exists r, t = s ++ r.
Proof.
  revert t. induction s as [|a s IH]; intros t H; [now exists t|]. destruct t as [|b t]; [discriminate|]. cbn in H. apply andb_true_iff in H. destruct H as [H1 H2].
  apply N.eqb_eq in H1. subst b. destruct (IH t H2) as [r ->]. now exists r.
Qed.
Lemma skipn_plus A (l : list A) : forall a b, skipn b (skipn a l) = skipn (a + b) l.
Proof. induction l as [|x l IH]; intros [|a] b; cbn; auto; apply skipn_nil. Qed.
Definition flat (l : list (str * str)) (y : str) : str := concat (alternating l y).
Lemma flat_cons x w l y : flat ((x, w) :: l) y = x ++ w ++ flat l y.
Proof. reflexivity. Qed.
Lemma flat_nil y : flat [] y = y.
Proof. apply app_nil_r. Qed.
Lemma splits_flat separate seps n s l y : splits separate seps n s l y -> flat l y = s.
Proof.
  induction 1; [apply flat_nil|apply flat_nil|]. now rewrite flat_cons, IHsplits.
Qed.
Lemma splits_in_seps seps s l y : splits true seps None s l y -> Forall (fun p : str * str => In (snd p) seps) l.
Proof. intros S. remember None as n. revert Heqn. induction S; intros; subst; auto. constructor; auto. apply H1. Qed.

Section Table.
  Context (is_bytes : bool) (table : delimiters) (OK : table_ok table) (NQ : forall k d, In (k, d) table -> d_quoting d = false).
  Notation loop := (delimiter_loop is_bytes table).
  Notation corr := (corr table).
  Lemma no_newline_tokens : newlines_of is_bytes table = [].
  Proof.
    unfold newlines_of. replace (forallb _ table) with true; auto. symmetry. apply forallb_forall. intros [k d] I. cbn.
    destruct (ok_multiline _ OK k d I) as [H|H]; auto. rewrite (NQ k d I) in H. discriminate.
  Qed.
  Definition kept (buffer : list str) (l : list (str * str)) (y : str) (consumed : nat) (ys : list triple) (r : outcome) : Prop :=
    match r with
    | Raised _ => True
    | Finished b e => e = [] /\ concat buffer ++ flat l y = joined ys ++ concat b
    | Resplit c st b e n => e = [] /\ exists k, n = consumed + k /\ k <= length (flat l y) /\ concat buffer ++ firstn k (flat l y) = joined ys ++ concat b
    end.
  Lemma kept_step x w l y buffer consumed ys r b0 pre : concat buffer ++ x ++ w = joined pre ++ concat b0 ->
    kept b0 l y (consumed + length x + length w) ys r -> kept buffer ((x, w) :: l) y consumed (pre ++ ys) r.
  Proof.
    intros E K. destruct r as [b e|e|c st b e n]; cbn [kept] in *; auto.
    - destruct K as [-> K]. split; auto. rewrite flat_cons, joined_app, <- app_assoc, <- K, app_assoc, app_assoc. rewrite <- (app_assoc (concat buffer)), E, <- app_assoc. reflexivity.
    - destruct K as (-> & k & -> & L & K). split; auto. exists (length x + length w + k). split; [lia|]. rewrite flat_cons, !app_length. split; [lia|].
      rewrite joined_app, <- app_assoc, <- K. rewrite (app_assoc x w), firstn_app, app_length. rewrite firstn_all2 by (rewrite app_length; lia).
      replace (length x + length w + k - (length x + length w)) with k by lia.
      rewrite app_assoc, E, <- app_assoc. reflexivity.
  Qed.
  Lemma loop_join l y : Forall (fun p : str * str => In (snd p) (all_tokens is_bytes table)) l -> forall cur stack ks buffer consumed ys r,
    corr cur stack ks -> loop (as_pairs l y) cur stack buffer [] consumed = (ys, r) -> kept buffer l y consumed ys r.
  Proof.
    induction 1 as [|[x w] l Hw Fl IH]; intros cur stack ks buffer consumed ys r C E.
    - unfold as_pairs in E. cbn [map app delimiter_loop is_nil negb andb] in E. rewrite andb_true_r in E. destruct (is_nil y) eqn:Y.
      + apply is_nil_iff in Y. subst y. injection E as <- <-. split; auto. now rewrite flat_nil, app_nil_r.
      + injection E as <- <-. split; auto. now rewrite flat_nil, concat_snoc.
    - assert (Eap : as_pairs ((x, w) :: l) y = Two x w :: as_pairs l y) by reflexivity. rewrite Eap in E. cbn [delimiter_loop] in E.
      cbn [snd] in Hw. pose proof (tokens_nonempty is_bytes table OK) as TN. rewrite Forall_forall in TN. pose proof (TN w Hw) as NW.
      assert (Zw : is_nil w = false) by (now apply is_nil_false). rewrite Zw, andb_false_r in E. cbn [is_nil negb andb] in E. cbv zeta in E.
      pose proof (lookup_has_shape is_bytes table OK cur w (corr_in_table _ _ _ _ C)) as S. pose proof (corr_in_table _ _ _ _ C) as IT.
      assert (QF : forall d, cur = Some d -> d_quoting d = false) by (intros d ->; destruct IT as [k IT]; eauto).
      destruct S as [d G T|d Ec Et|d Ec N Et|_|d Ec Q M I|H|d Ec Q N1 N2 Sh|d s Ec Hs Ns W].
      + destruct (loop (as_pairs l y) _ _ _ _ _) as [y' r'] eqn:E'. injection E as <- <-.
        apply (kept_step x w l y buffer consumed y' r' [] [(concat (buffer ++ [x]), w, [])]).
        * rewrite joined_cons, concat_snoc. cbn [concat joined map]. now rewrite !app_nil_r, <- app_assoc.
        * eapply IH; [|exact E']. eapply corr_push; eauto.
      + subst cur. destruct (corr_pop _ _ _ _ C) as (k & ks' & c & st & -> & -> & C' & Kc & Nd).
        destruct (loop (as_pairs l y) _ _ _ _ _) as [y' r'] eqn:E'. injection E as <- <-.
        apply (kept_step x w l y buffer consumed y' r' [] [(concat (buffer ++ [x]), [], w)]).
        * rewrite joined_cons, concat_snoc. cbn [concat joined map app]. now rewrite !app_nil_r, <- app_assoc.
        * eapply IH; [|exact E']. eauto.
      + exfalso. specialize (QF _ Ec). subst cur. destruct IT as [k IT]. rewrite (proj2 (ok_quoting _ OK k d IT)) in QF by auto. discriminate.
      + injection E as <- <-. exact Logic.I.
      + injection E as <- <-. exact Logic.I.
      + exfalso. destruct H as [H|H].
        * destruct cur as [d|]; [|contradiction]. rewrite (QF d eq_refl) in H. discriminate.
        * apply H. unfold all_tokens in Hw. rewrite no_newline_tokens, app_nil_r in Hw. exact Hw.
      + rewrite (QF _ Ec) in Q. discriminate.
      + subst cur. destruct (lookup_truncated is_bytes table OK d s IT Hs) as [[Ep Es]|Ep]; rewrite Ep in E.
        * destruct (corr_pop _ _ _ _ C) as (k & ks' & c & st & -> & -> & C' & Kc & Nd). injection E as <- <-. split; auto.
          destruct (starts_with_app s w W) as [rst ->]. exists (length x + length s). split; [lia|]. rewrite flat_cons, !app_length. split; [lia|].
          rewrite joined_cons, concat_snoc. cbn [concat joined map app]. rewrite !app_nil_r.
          rewrite <- (app_assoc s), (app_assoc x s), firstn_app, app_length, Nat.sub_diag, firstn_all2 by (rewrite app_length; lia). cbn [firstn]. now rewrite app_nil_r, <- app_assoc.
        * exfalso. pose proof (lookup_has_shape is_bytes table OK (Some d) s IT) as S. rewrite Ep in S. inversion S as [| |d0 Ed N Es| | | | | ]. injection Ed as <-.
          destruct IT as [k IT]. pose proof (QF d eq_refl) as QQ. rewrite (proj2 (ok_quoting _ OK k d IT)) in QQ by auto. discriminate.
  Qed.
  Lemma run_join text : forall fuel cur stack ks buffer consumed ys, corr cur stack ks -> consumed <= length text ->
    delimiter_run is_bytes table text fuel cur stack buffer [] consumed = (ys, None) -> joined ys = concat buffer ++ skipn consumed text.
  Proof.
    induction fuel as [|fuel IH]; intros cur stack ks buffer consumed ys C Le E; [discriminate|]. cbn [delimiter_run] in E.
    destruct (C32_multisplit_is_the_split (skipn consumed text) (Some (all_tokens is_bytes table)) AsPairs (Some (-1)%Z) false true) as (l & y & Sp & Em);
      [split; [apply tokens_nonnil; auto|apply tokens_nonempty; auto]|].
    rewrite Em in E. clear Em. cbn in Sp. change (map (fun p : str * str => Two (fst p) (snd p)) l ++ [Two y []]) with (as_pairs l y) in E.
    destruct (loop (as_pairs l y) cur stack buffer [] consumed) as [ys0 r] eqn:El.
    pose proof (loop_join l y (splits_in_seps _ _ _ _ Sp) _ _ _ _ _ _ _ C El) as K.
    destruct (loop_spec is_bytes table OK l y (splits_toks_nonempty _ _ _ _ (tokens_nonempty _ _ OK) Sp) _ _ _ _ _ _ _ _ C El) as (ks' & R & A).
    pose proof (splits_flat _ _ _ _ _ _ Sp) as Fl.
    destruct r as [b e|e|c st b e n]; cbn [kept after] in K, A; rewrite ?Fl in K; [|discriminate|].
    - destruct K as [-> K]. cbn [is_nil negb] in E. destruct b as [|b0 b]; [cbn [is_nil] in E; injection E as <-; cbn in K; now rewrite app_nil_r in K|]. cbn [is_nil] in E.
      destruct (concat (b0 :: b)) eqn:CB; cbn [is_nil] in E; injection E as <-; [now rewrite app_nil_r in K|].
      rewrite joined_app, joined_cons. cbn [app joined map concat]. now rewrite !app_nil_r, K.
    - destruct K as (-> & k & -> & L & K). destruct (delimiter_run is_bytes table text fuel c st b [] (consumed + k)) as [ys' e'] eqn:E'. injection E as <- ->.
      rewrite skipn_length in L. specialize (IH c st ks' b (consumed + k) ys' (proj1 A) ltac:(lia) E').
      rewrite joined_app, IH, app_assoc, <- K, <- app_assoc. f_equal. rewrite <- (firstn_skipn k (skipn consumed text)) at 2. f_equal. symmetry. apply skipn_plus.
  Qed.
End Table.
