(** C56, C90: lines_strip, lines_rstrip, lines_convert_tabs_to_spaces. *)
From Verif Require Import LinesModel LinesSpec LinesSpec2 LinesProof SplitSpec SplitProof SplitProof2 SplitProof3 SplitProps PyStrProof RegexProof PyBaseProof DelimProof LinesProps.

Section P.
  Context (is_bytes : bool) (start_column tab_width : Z).

  Lemma clip_all_taken i line : has_its_end (i, line) -> exists q, clip_all i = Ok q /\ snd q = [] /\ identity q = identity (i, line) /\ i_indent (fst q) = i_indent i /\
    i_leading (fst q) = [] /\ i_trailing (fst q) ++ i_end (fst q) = i_line (fst q).
  Proof.
    intros [t E]. unfold clip_all. assert (ends_with (i_end i) (i_line i) = true) as -> by (apply ends_with_iff; eauto).
    eexists. split; [reflexivity|]. cbn. split; [reflexivity|]. split; [reflexivity|]. split; [reflexivity|]. split; [reflexivity|].
    destruct (i_end i) as [|c e] eqn:Z; cbn [is_nil]; [apply app_nil_r|]. cbn in E. rewrite E, Z, slice_to_neg by discriminate. reflexivity.
  Qed.
  Lemma taken_none p : taken_off [] (snd p) [] p p.
  Proof. unfold taken_off. rewrite !app_nil_r. cbn. split; auto. split; auto. split; auto. split; auto. split; auto. congruence. Qed.

  Lemma clip_trailing_taken i (r s : str) : has_its_end (i, r ++ s) -> r <> r ++ s -> exists q, clip_trailing i (r ++ s) (ByInt (- Z.of_nat (length r))) = Ok q /\ taken_off [] r s (i, r ++ s) q.
  Proof.
    intros W N. unfold clip_trailing. cbn [clip_count]. rewrite Z.opp_involutive, slice_to_app, slice_from_app.
    set (l := if (_ =? 0)%Z then [] else r). assert (l = r) as ->. { unfold l. destruct (_ =? 0)%Z eqn:Z0; auto. destruct r; auto. cbn in Z0. lia. }
    destruct (is_nil r) eqn:Nr.
    - apply is_nil_iff in Nr. subst r. destruct (clip_all_taken i ([] ++ s) W) as (q & -> & H1 & H2 & H3 & H4 & H5). exists q. split; auto. unfold taken_off. cbn [fst snd app]. split; auto. split; auto. split; auto. split; auto. split; [|auto].
      intros [H|H]; [congruence|]. cbn in N. congruence.
    - eexists. split; [reflexivity|]. apply is_nil_false in Nr. unfold taken_off. cbn. rewrite app_nil_r. split; auto. split; auto. split; auto. split; auto. split; auto. congruence.
  Qed.

  Lemma clip_both_taken i (a r b : str) : has_its_end (i, a ++ r ++ b) -> r <> [] \/ a = [] -> a ++ r ++ b <> [] ->
    exists q, clip_both tab_width i (a ++ r ++ b) a b = Ok (Some q) /\ taken_off a r b (i, a ++ r ++ b) q /\
      (r <> [] -> i_column (fst q) = (i_column i + if is_nil a then 0 else Z.of_nat (length (expandtabs tab_width a)))%Z).
  Proof.
    intros W C NE. destruct (is_nil r) eqn:Nr.
    - apply is_nil_iff in Nr. subst r. destruct C as [C| ->]; [congruence|]. cbn [app] in *. unfold clip_both. cbn [is_nil]. destruct b as [|c b]; [congruence|]. cbn [is_nil].
      unfold clip_trailing. cbn [clip_count]. destruct (_ =? 0)%Z eqn:Z0; [cbn in Z0; lia|]. change (slice_to (c :: b)) with (slice_to ([] ++ c :: b)). rewrite slice_to_neg by discriminate. cbn [is_nil].
      destruct (clip_all_taken i (c :: b) W) as (q & -> & H1 & H2 & H3 & H4 & H5). exists q. split; auto. split; [|congruence]. unfold taken_off. cbn [fst snd app]. split; auto. split; auto. split; auto. split; auto. split; auto.
      intros [H|H]; congruence.
    - apply is_nil_false in Nr. unfold clip_both. set (start := if is_nil a then _ else _).
      set (i1 := mkInfo (i_line i) (i_number i) (i_column i + if is_nil a then 0 else Z.of_nat (length (expandtabs tab_width a)))%Z (i_leading i ++ a) (i_trailing i) (i_end i) (i_indent i)).
      assert (start = Ok (i1, r ++ b)) as ->.
      { unfold start, i1. destruct (is_nil a) eqn:Na.
        - apply is_nil_iff in Na. subst a. cbn [app]. rewrite Z.add_0_r, app_nil_r. now destruct i.
        - unfold clip_leading. cbn [clip_count]. rewrite slice_from_app. assert (is_nil (r ++ b) = false) as -> by (apply is_nil_false; destruct r; [congruence|discriminate]). reflexivity. }
      destruct (is_nil b) eqn:Nb.
      + apply is_nil_iff in Nb. subst b. eexists. split; [reflexivity|]. rewrite app_nil_r. split; auto. unfold taken_off. cbn. rewrite app_nil_r. split; auto. split; auto. split; auto. split; auto. split; auto. congruence.
      + unfold clip_trailing. cbn [clip_count]. apply is_nil_false in Nb. rewrite slice_to_neg by auto. destruct (_ =? 0)%Z eqn:Z0; [destruct b; [congruence|cbn in Z0; lia]|].
        rewrite (proj2 (is_nil_false _ r) Nr). eexists. split; [reflexivity|]. cbn. split; auto. unfold taken_off. cbn. split; auto. split; auto. split; auto. split; auto. split; auto. congruence.
  Qed.

  (** the iterator yields one pair for each *)
  Lemma for_each_all f (R : pair -> pair -> Prop) l up : (forall p, In p l -> exists q, f p = Ok (Some q) /\ R p q) -> exists l', for_each f l up = (l', up) /\ Forall2 R l l'.
  Proof.
    induction l as [|p l IH]; intros H; cbn [for_each]; [exists []; auto|].
    destruct (H p (or_introl eq_refl)) as (q & -> & Rq). destruct IH as (l' & -> & F); [intros; apply H; now right|]. exists (q :: l'). split; auto.
  Qed.

  Lemma ends_rev (s : str) f : match rev s with c :: _ => f c = false | [] => True end -> not_at_end f s.
  Proof. intros H c t ->. now rewrite rev_app_distr in H. Qed.
  Lemma all_forallb f s : forallb f s = true -> all_of f s. Proof. intros H c I. rewrite forallb_forall in H. auto. Qed.

  (** lines_strip and lines_rstrip strip whitespace, and keep what they strip. *)
  Theorem C56_rstrip_whitespace : forall l up, Forall has_its_end l -> exists l', modify is_bytes start_column tab_width (Rstrip None) (l, up) = Ok (l', up) /\
    Forall2 (fun p q => exists r b, taken_off [] r b p q /\ all_of (white is_bytes) b /\ not_at_end (white is_bytes) r) l l'.
  Proof.
    intros l up W. destruct (for_each_all (rstrip_line is_bytes None) (fun p q => exists r b, taken_off [] r b p q /\ all_of (white is_bytes) b /\ not_at_end (white is_bytes) r) l up) as (l' & E & F).
    - intros [i line] I. rewrite Forall_forall in W. specialize (W _ I). unfold rstrip_line. destruct (rstrip_spec is_bytes line) as (ws & E & A & B). apply ends_rev in B. apply all_forallb in A.
      destruct (str_eqb _ line) eqn:Q.
      + apply str_eqb_eq in Q. rewrite Q in B. eexists. split; [reflexivity|]. exists line, []. split; [apply (taken_none (i, line))|]. split; auto. intros c [].
      + assert (rstrip is_bytes line <> line) by (intros H; apply not_true_iff_false in Q; apply Q; now apply str_eqb_eq). remember (rstrip is_bytes line) as r. rewrite E in *.
        destruct (clip_trailing_taken i r ws W H) as (q & -> & T). eexists. split; [reflexivity|]. eauto.
    - exists l'. cbn [modify]. rewrite E. auto.
  Qed.
  Theorem C56_strip_whitespace : forall l up, Forall has_its_end l -> exists l', modify is_bytes start_column tab_width (Strip None) (l, up) = Ok (l', up) /\
    Forall2 (fun p q => exists a r b, taken_off a r b p q /\ all_of (white is_bytes) (a ++ b) /\ not_at_start (white is_bytes) r /\ not_at_end (white is_bytes) r /\
      (r <> [] -> i_column (fst q) = (i_column (fst p) + Z.of_nat (length (expandtabs tab_width a)))%Z)) l l'.
  Proof.
    intros l up W. edestruct (for_each_all (strip_line is_bytes tab_width None)) as (l' & E & F); [|exists l'; cbn [modify]; rewrite E; split; [reflexivity|exact F]].
    intros [i line] I. rewrite Forall_forall in W. specialize (W _ I). unfold strip_line.
    assert (Em : not_at_start (white is_bytes) [] /\ not_at_end (white is_bytes) []) by (split; intros c t H; [discriminate|destruct t; discriminate]).
    destruct (is_nil line) eqn:NL.
    - apply is_nil_iff in NL. subst line. eexists. split; [reflexivity|]. exists [], [], []. split; [apply (taken_none (i, []))|]. split; [intros c []|]. split; [apply Em|]. split; [apply Em|]. congruence.
    - apply is_nil_false in NL. destruct (lstrip_spec is_bytes line) as (ws & E & A & B). destruct (is_nil (lstrip is_bytes line)) eqn:NS.
      + apply is_nil_iff in NS. rewrite NS, app_nil_r in E. subst ws.
        destruct (clip_both_taken i [] [] line W (or_intror eq_refl) NL) as (q & Eq & T & C). cbn [app] in Eq. rewrite Eq. exists q. split; auto. exists [], [], line. split; auto. split; [apply all_forallb; auto|]. split; [apply Em|]. split; [apply Em|]. congruence.
      + apply is_nil_false in NS. assert (NSt : not_at_start (white is_bytes) (lstrip is_bytes line)). { intros c t Ec. now rewrite Ec in B. }
        assert (H0 : exists c t, lstrip is_bytes line = c :: t /\ white is_bytes c = false). { destruct (lstrip is_bytes line) as [|c t]; [congruence|]. eauto. }
        remember (lstrip is_bytes line) as x. destruct (rstrip_spec is_bytes x) as (tr & E' & A' & B'). apply ends_rev in B'.
        assert (NR : rstrip is_bytes x <> []). { intros Z. rewrite Z in E'. cbn in E'. destruct H0 as (c & t & Ec & Hc). rewrite <- E', Ec in A'. cbn in A'. rewrite Hc in A'. discriminate. }
        remember (rstrip is_bytes x) as r.
        assert (firstn (length line - length x) line = ws) as ->.
        { rewrite E, app_length. replace (length ws + length x - length x) with (length ws) by lia. rewrite firstn_app, Nat.sub_diag, firstn_all. apply app_nil_r. }
        assert (skipn (length r) x = tr) as -> by (rewrite E' at 1; rewrite skipn_app, Nat.sub_diag, skipn_all; reflexivity).
        assert (SR : not_at_start (white is_bytes) r). { intros c t Ec. apply (NSt c (t ++ tr)). now rewrite E', Ec. }
        clear Heqx Heqr. subst x. rewrite E in *. destruct (clip_both_taken i ws r tr W (or_introl NR) NL) as (q & -> & T & C). exists q. split; auto. exists ws, r, tr. split; auto.
        split; [intros c Ic; apply in_app_iff in Ic; destruct Ic as [Ic|Ic]; [now apply (all_forallb _ _ A)|now apply (all_forallb _ _ A')]|]. split; auto. split; auto.
        intros H. rewrite (C H). cbn [fst]. destruct ws; reflexivity.
  Qed.

  Lemma multistrip_ok s seps left right : valid (Some seps) -> exists r, multistrip s seps left right = Ok r.
  Proof.
    intros [V1 V2]. cbn in V1, V2. destruct (multistrip s seps left right) as [r|e] eqn:E; [eauto|exfalso].
    assert (e = ValueError) as -> by (pose proof (multistrip_cases s seps left right) as M; now rewrite E in M).
    apply C36_multistrip_errors in E. destruct E as [E|E]; [auto|]. unfold nonempty in V2. rewrite Forall_forall in V2. exact (V2 [] E eq_refl).
  Qed.
  Lemma partition_first w : w <> [] -> forall a b, (forall k, k < length a -> starts_with w (skipn k (a ++ w ++ b)) = false) -> partition w (a ++ w ++ b) = (a, b).
  Proof.
    intros Nw. induction a as [|c a IH]; intros b H.
    - cbn [app]. assert (S : starts_with w (w ++ b) = true) by (apply starts_with_iff; eauto). destruct w as [|d w]; [congruence|]. cbn [app partition] in *. rewrite S. f_equal. cbn [length skipn].
      rewrite skipn_app, Nat.sub_diag, skipn_all. reflexivity.
    - cbn [app partition]. specialize (H 0) as H0. cbn [skipn app length] in H0. rewrite H0 by lia. rewrite IH; [reflexivity|]. intros k Hk. apply (H (S k)). cbn. lia.
  Qed.
  (** With separators of one character, and if a newline is a separator or no line ends with one. *)
  Theorem C56_strip_separators_partial : forall seps l up, valid (Some seps) -> Forall (fun w => length w = 1) seps -> Forall has_its_end l ->
    In [newline] seps \/ Forall (fun p => forall t, snd p <> t ++ [newline]) l ->
    exists l', modify is_bytes start_column tab_width (Strip (Some seps)) (l, up) = Ok (l', up) /\
    Forall2 (fun p q => exists a r b, taken_off a r b p q /\ of_seps seps a /\ of_seps seps b /\ ~ starts_with_sep seps r /\ ~ ends_with_sep seps r) l l'.
  Proof.
    intros seps l up V V1 W G. edestruct (for_each_all (strip_line is_bytes tab_width (Some seps))) as (l' & E & F); [|exists l'; cbn [modify]; rewrite E; split; [reflexivity|exact F]].
    intros [i line] I. rewrite Forall_forall in W. specialize (W _ I). unfold strip_line.
    assert (G' : true = false \/ In [newline] seps \/ forall t, line <> t ++ [newline]). { right. destruct G as [G|G]; auto. right. rewrite Forall_forall in G. apply (G _ I). }
    destruct (C36_multistrip_partial line seps true true V G') as (a & r & b & M & E & Oa & Ob & _ & _ & NS & NE). specialize (NS eq_refl). specialize (NE eq_refl). rewrite M.
    destruct (is_nil line) eqn:NL.
    - apply is_nil_iff in NL. rewrite NL in *. symmetry in E. apply app_eq_nil in E. destruct E as [-> E]. apply app_eq_nil in E. destruct E as [-> ->].
      eexists. split; [reflexivity|]. exists [], [], []. split; [apply (taken_none (i, []))|]. auto.
    - apply is_nil_false in NL. destruct (is_nil r) eqn:Nr.
      + apply is_nil_iff in Nr. subst r. destruct (clip_both_taken i [] [] line W (or_intror eq_refl) NL) as (q & Eq & T & C). cbn [app] in Eq. rewrite Eq. exists q. split; auto. exists [], [], line. split; auto. split; [exists []; split; auto|]. split; auto.
        cbn [app] in E. rewrite E. destruct Oa as (la & Fa & ->), Ob as (lb & Fb & ->). exists (la ++ lb). split; [now apply Forall_app|now rewrite concat_app].
      + apply is_nil_false in Nr. assert (P : partition r line = (a, b)).
        { rewrite E. apply partition_first; auto. intros k Hk. apply not_true_iff_false. intros S. apply starts_with_iff in S. destruct S as [t S]. apply NS.
          destruct r as [|c r]; [congruence|]. rewrite skipn_app in S. replace (k - length a) with 0 in S by lia. cbn [skipn] in S.
          destruct (skipn k a) as [|d sk] eqn:SK; [apply (f_equal (@length _)) in SK; rewrite skipn_length in SK; cbn in SK; lia|]. cbn in S. injection S as S _. subst d.
          assert (Ic : In c a) by (rewrite <- (firstn_skipn k a), SK; apply in_app_iff; right; left; reflexivity).
          destruct Oa as (la & Fa & ->). apply in_concat in Ic. destruct Ic as (w & Iw & Icw). rewrite Forall_forall in Fa, V1. specialize (Fa w Iw). specialize (V1 w Fa).
          destruct w as [|c' [|]]; try discriminate. destruct Icw as [->|[]]. exists [c], r. auto. }
        rewrite P. rewrite E in *. destruct (clip_both_taken i a r b W (or_introl Nr) NL) as (q & -> & T & C). exists q. split; auto. exists a, r, b. auto.
  Qed.
  (** With any separators the line yielded is what multistrip returns, and nothing is lost. *)
  Theorem C56_strip_is_multistrip : forall seps l up, valid (Some seps) -> Forall has_its_end l ->
    (exists l', modify is_bytes start_column tab_width (Strip (Some seps)) (l, up) = Ok (l', up) /\
       Forall2 (fun p q => multistrip (snd p) seps true true = Ok (snd q) /\ exists a b, taken_off a (snd q) b p q) l l') /\
    (exists l', modify is_bytes start_column tab_width (Rstrip (Some seps)) (l, up) = Ok (l', up) /\
       Forall2 (fun p q => multistrip (snd p) seps false true = Ok (snd q) /\ exists b, taken_off [] (snd q) b p q) l l').
  Proof.
    intros seps l up V W. rewrite Forall_forall in W. split.
    - edestruct (for_each_all (strip_line is_bytes tab_width (Some seps))) as (l' & E & F); [|exists l'; cbn [modify]; rewrite E; split; [reflexivity|exact F]].
      intros [i line] I. specialize (W _ I). unfold strip_line. destruct (multistrip_ok line seps true true V) as [r M]. cbn [snd]. pose proof (multistrip_cases line seps true true) as C. rewrite M in C |- *. destruct C as (a & b & E & _).
      destruct (is_nil line) eqn:NL.
      + apply is_nil_iff in NL. rewrite NL in *. symmetry in E. apply app_eq_nil in E. destruct E as [-> E]. apply app_eq_nil in E. destruct E as [-> ->].
        eexists. split; [reflexivity|]. split; auto. exists [], []. apply (taken_none (i, [])).
      + apply is_nil_false in NL. destruct (is_nil r) eqn:Nr.
        * apply is_nil_iff in Nr. subst r. destruct (clip_both_taken i [] [] line W (or_intror eq_refl) NL) as (q & Eq & T & _). cbn [app] in Eq. rewrite Eq. exists q. split; auto. assert (snd q = []) as -> by apply T. split; auto. exists [], line. exact T.
        * apply is_nil_false in Nr. destruct (partition r line) as [x y] eqn:P. apply partition_spec in P; [|eauto]. rewrite P in W, NL |- *. destruct (clip_both_taken i x r y W (or_introl Nr) NL) as (q & -> & T & _). exists q. split; auto. assert (snd q = r) as -> by apply T. split; eauto.
    - edestruct (for_each_all (rstrip_line is_bytes (Some seps))) as (l' & E & F); [|exists l'; cbn [modify]; rewrite E; split; [reflexivity|exact F]].
      intros [i line] I. specialize (W _ I). unfold rstrip_line. destruct (multistrip_ok line seps false true V) as [r M]. cbn [snd]. pose proof (multistrip_cases line seps false true) as C. rewrite M in C |- *. destruct C as (a & b & E & A). rewrite (A eq_refl) in E. cbn [app] in E.
      destruct (str_eqb r line) eqn:Q.
      + apply str_eqb_eq in Q. subst r. eexists. split; [reflexivity|]. split; auto. exists []. apply (taken_none (i, line)).
      + assert (r <> line) by (intros H; apply not_true_iff_false in Q; apply Q; now apply str_eqb_eq). rewrite E in W, H |- *.
        destruct (clip_trailing_taken i r b W H) as (q & -> & T). eexists. split; [reflexivity|]. cbn [fst snd]. assert (Sq : snd q = r) by apply T. split; [rewrite <- Sq; auto; now rewrite Sq|]. exists b.
        destruct q as [iq lq]. cbn in Sq |- *. subst lq. exact T.
  Qed.

  (** * C90 *)
  Lemma expandtabs_ok : (0 < tab_width)%Z -> forall s col, without_tabs tab_width col s (expandtabs_aux tab_width col s).
  Proof.
    intros T. induction s as [|c s IH]; intros col; cbn [expandtabs_aux]; [constructor|]. destruct (c =? 9)%N eqn:C9.
    - apply N.eqb_eq in C9. subst c. destruct (0 <? tab_width)%Z eqn:TW; [|lia]. cbn zeta.
      pose proof (Z.mod_pos_bound col tab_width T) as B. pose proof (Z.div_mod col tab_width ltac:(lia)) as DM.
      match goal with |- context [repeat 32%N ?k] => set (n := k) end. assert (En : Z.of_nat n = (tab_width - col mod tab_width)%Z) by (unfold n; lia).
      match goal with |- context [expandtabs_aux tab_width ?p s] => replace p with (col + Z.of_nat n)%Z by lia end.
      apply wt_tab; [lia| |apply IH]. rewrite En. replace (col + (tab_width - col mod tab_width))%Z with ((col / tab_width + 1) * tab_width)%Z by nia. apply Z.mod_mul. lia.
    - apply N.eqb_neq in C9. destruct ((c =? 10) || (c =? 13))%N eqn:CB.
      + apply wt_break; auto. apply orb_true_iff in CB. rewrite !N.eqb_eq in CB. auto.
      + apply orb_false_iff in CB. rewrite !N.eqb_neq in CB. apply wt_char; auto; tauto.
  Qed.
  Theorem C90_convert_tabs : forall l up, (0 < tab_width)%Z -> exists l', modify is_bytes start_column tab_width ConvertTabs (l, up) = Ok (l', up) /\
    Forall2 (fun p q => fst q = fst p /\ without_tabs tab_width 0 (snd p) (snd q) /\ ~ In 9%N (snd q)) l l'.
  Proof.
    intros l up T. edestruct (for_each_all (fun p => Ok (Some (fst p, expandtabs tab_width (snd p))))) as (l' & E & F); [|exists l'; cbn [modify]; rewrite E; split; [reflexivity|exact F]].
    intros p _. eexists. split; [reflexivity|]. cbn [fst snd]. split; auto. pose proof (expandtabs_ok T (snd p) 0) as X. split; auto. unfold expandtabs. revert X. generalize (expandtabs_aux tab_width 0 (snd p)). generalize 0%Z.
    intros col t X. induction X; cbn; auto.
    - intros H'. apply in_app_iff in H'. destruct H' as [H'|H']; auto. apply repeat_spec in H'. discriminate.
    - intros [H'|H']; auto. destruct H; subst; discriminate.
    - intros [H'|H']; auto.
  Qed.
  (** without a positive tab width tabs are dropped *)
  Theorem C90_convert_tabs_no_width : forall l up, (tab_width <= 0)%Z ->
    modify is_bytes start_column tab_width ConvertTabs (l, up) = Ok (map (fun p => (fst p, filter (fun c => negb (c =? 9)%N) (snd p))) l, up).
  Proof.
    intros l up T. cbn [modify]. f_equal. induction l as [|p l IH]; auto. cbn [for_each map]. rewrite IH. unfold yield_. cbn [fst snd]. f_equal. f_equal. f_equal. unfold expandtabs. clear - T.
    cut (forall s pos, expandtabs_aux tab_width pos s = filter (fun c : chr => negb (c =? 9)%N) s); [intros H; apply H|]. induction s as [|c s IH]; intros pos; [reflexivity|]. cbn [expandtabs_aux filter]. destruct (c =? 9)%N; cbn [negb].
    - destruct (0 <? tab_width)%Z eqn:TW; [lia|]. apply IH.
    - f_equal. destruct ((c =? 10) || (c =? 13))%N; apply IH.
  Qed.
End P.
Print Assumptions C56_rstrip_whitespace.
Print Assumptions C56_strip_whitespace.
Print Assumptions C56_strip_separators_partial.
Print Assumptions C56_strip_is_multistrip.
Print Assumptions C90_convert_tabs.
Print Assumptions C90_convert_tabs_no_width.

(** With longer separators what goes to leading and to trailing need not be separators: the
    stripped text is looked for from the left, and may be found too early.  (The line is right.) *)
Theorem C56_leading_refuted : exists l' p, lines false 1 (Text (u "abb") None) 1 = Ok [p] /\ snd p = u "abb" /\
  multistrip (u "abb") [u "ab"] true true = Ok (u "b") /\ of_seps [u "ab"] (u "ab") /\
  modify false 1 8 (Strip (Some [u "ab"])) ([p], None) = Ok (l', None) /\
  map snd l' = [u "b"] /\ map (fun q => i_leading (fst q)) l' = [u "a"] /\ map (fun q => i_trailing (fst q)) l' = [u "b"] /\ ~ of_seps [u "ab"] (u "a").
Proof.
  eexists. eexists. split; [vm_compute; reflexivity|]. split; [reflexivity|]. split; [vm_compute; reflexivity|]. split; [exists [u "ab"]; split; [repeat constructor|reflexivity]|].
  split; [vm_compute; reflexivity|]. split; [reflexivity|]. split; [reflexivity|]. split; [reflexivity|].
  intros (l & F & E). destruct l as [|w l]; [discriminate|]. inversion F as [|? ? [<-|[]] _]; subst. discriminate.
Qed.
Print Assumptions C56_leading_refuted.
Example C56_witness : exists l', Forall has_its_end [new_info 1 7 (u "  x y ", [10%N]); new_info 1 8 (u "   ", [10%N])] /\
  modify false 1 8 (Strip None) ([new_info 1 7 (u "  x y ", [10%N]); new_info 1 8 (u "   ", [10%N])], None) = Ok (l', None) /\
  map (fun q => (i_leading (fst q), snd q, i_trailing (fst q))) l' = [(u "  ", u "x y", u " "); ([], [], u "   ")].
Proof.
  eexists. split; [|split; [vm_compute; reflexivity|reflexivity]].
  constructor; [exists (u "  x y "); reflexivity|constructor; [exists (u "   "); reflexivity|constructor]].
Qed.
(** C90: the tab stops are counted from the start of what is left of the line, not from its
    column: clip a space first, and the text moves to the right. *)
Theorem C90_after_clipping_refuted : exists p q,
  process false 1 8 (Text (u " " ++ 9%N :: u "x") None) 1 [ConvertTabs; Strip (Some [u " "])] = Ok ([p], None) /\
  process false 1 8 (Text (u " " ++ 9%N :: u "x") None) 1 [Strip (Some [u " "]); ConvertTabs] = Ok ([q], None) /\
  snd p = u "x" /\ i_column (fst p) = 9%Z /\ snd q = u "        x" /\ i_column (fst q) = 2%Z.
Proof. eexists. eexists. split; [vm_compute; reflexivity|]. split; [vm_compute; reflexivity|]. repeat split. Qed.
Print Assumptions C90_after_clipping_refuted.
Example C90_witness : exists l', modify false 1 8 ConvertTabs ([new_info 1 7 (u "ab" ++ 9%N :: u "c", [])], None) = Ok (l', None) /\ map snd l' = [u "ab      c"].
Proof. eexists. split; [vm_compute; reflexivity|reflexivity]. Qed.
