(** lines_strip_line_comments, lines_sort, the filters (lemmas for C57-C59). *)
From Verif Require Import LinesModel LinesSpec SplitSpec SplitProof SplitProof2 SplitProof3 SplitProps PyStrProof RegexProof PyBaseProof.
From Verif Require Import DelimSpec DelimProof DelimProof4 DelimProps LinesProof.

Lemma in_firstn {A} (x : A) k l : In x (firstn k l) -> In x l.
Proof. intros I. rewrite <- (firstn_skipn k l). apply in_app_iff. auto. Qed.
(** * sorting is stable *)
Section Stable.
  Context {A : Type} (ltb : A -> A -> bool) (W : strict_weak ltb).
  Lemma insert_ties x y l : ties ltb x (insert ltb y l) = ties ltb x (y :: l).
  Proof.
    induction l as [|z l IH]; auto. cbn [insert]. destruct (ltb z y) eqn:E; auto. unfold ties in *. cbn [filter] in *. rewrite IH.
    destruct (negb (ltb x y) && negb (ltb y x)) eqn:Y; auto. destruct (negb (ltb x z) && negb (ltb z x)) eqn:Z; auto.
    apply andb_true_iff in Y, Z. rewrite !negb_true_iff in Y, Z. destruct Y as [Y1 Y2], Z as [Z1 Z2].
    rewrite (sw_le_trans ltb W y x z) in E; auto; discriminate.
  Qed.
  Lemma sort_ties x l : ties ltb x (sort ltb l) = ties ltb x l.
  Proof. induction l as [|y l IH]; auto. cbn [sort]. rewrite insert_ties. unfold ties in *. cbn [filter]. now rewrite IH. Qed.
  Lemma ties_rev x l : ties ltb x (rev l) = rev (ties ltb x l).
  Proof.
    unfold ties. induction l as [|y l IH]; auto. cbn [rev filter]. rewrite filter_app, IH. cbn [filter]. destruct (_ && _); [reflexivity|]. now rewrite app_nil_r.
  Qed.
  Lemma sort_rev_ties x l : ties ltb x (sort_rev ltb l) = ties ltb x l.
  Proof. unfold sort_rev. now rewrite ties_rev, sort_ties, ties_rev, rev_involutive. Qed.
End Stable.
Lemma str_ltb_irrefl a : str_ltb a a = false.
Proof. induction a as [|c a IH]; cbn; auto. rewrite IH, N.ltb_irrefl, andb_false_r. reflexivity. Qed.
Lemma str_ltb_asym a : forall b, str_ltb a b = true -> str_ltb b a = false.
Proof.
  induction a as [|c a IH]; intros [|d b] H; cbn in *; auto; try discriminate. apply orb_true_iff in H. destruct H as [H|H].
  - apply N.ltb_lt in H. destruct (d <? c)%N eqn:E; [apply N.ltb_lt in E; lia|]. destruct (d =? c)%N eqn:E2; auto. apply N.eqb_eq in E2. lia.
  - apply andb_true_iff in H. destruct H as [H1 H2]. apply N.eqb_eq in H1. subst d. rewrite N.ltb_irrefl, N.eqb_refl. cbn. auto.
Qed.
Lemma str_ltb_le_trans a : forall b c, str_ltb b a = false -> str_ltb c b = false -> str_ltb c a = false.
Proof.
  induction a as [|x a IH]; intros b c H1 H2; destruct c as [|z c]; auto; destruct b as [|y b]; cbn in *; try discriminate.
  apply orb_false_iff in H1, H2. destruct H1 as [H1 H1'], H2 as [H2 H2']. apply N.ltb_ge in H1, H2.
  destruct (z <? x)%N eqn:E; [apply N.ltb_lt in E; lia|]. cbn. destruct (z =? x)%N eqn:E2; auto. apply N.eqb_eq in E2. subst z. assert (y = x) by lia. subst y.
  rewrite N.eqb_refl in *. cbn in *. eauto.
Qed.
Lemma by_line_weak : strict_weak by_line.
Proof.
  unfold by_line. split; [intros; apply str_ltb_irrefl|]. split; [intros a b; apply str_ltb_asym|]. intros a b c. apply str_ltb_le_trans.
Qed.

(** * comments *)
Section Comm.
  Context (is_bytes : bool) (markers : list str) (NE : nonempty markers).
  Lemma split_once s : match re_split (separators_re markers true) (Some 1) s with
    | ((x, w) :: _, t) => s = x ++ w ++ t /\ In w markers /\ forall i, i < length x -> ~ sep_at markers s i
    | ([], _) => sep_free markers s end.
  Proof.
    pose proof (split_spec true markers (Some 1) s NE) as S. destruct (re_split _ _ s) as [l y]. cbn in S. remember (Some 1) as n eqn:En. destruct S as [s|n s F|n x w t l y N L O S]; try discriminate; auto.
    subst n. cbn in S. inversion S; subst; [|split; auto; split; [apply O|auto]|congruence]. split; auto. split; [apply O|auto].
  Qed.
  Definition seg_ok (g : segment) : Prop := (lead g = [] /\ inside g = [] /\ DelimSpec.trail g = []) \/ (lead g <> [] /\ lead g = inside g).
  Lemma texts_cons g l : texts (g :: l) = (lead g ++ body g ++ DelimSpec.trail g) ++ texts l. Proof. reflexivity. Qed.
  Lemma texts_app a b : texts (a ++ b) = texts a ++ texts b.
  Proof. unfold texts. now rewrite map_app, concat_app. Qed.
  Lemma joined_texts l : concat (map joined3 (map triple_of l)) = texts l.
  Proof. induction l as [|g l IH]; auto. cbn [map concat]. rewrite IH. reflexivity. Qed.
  Lemma still_open_cons g l : l <> [] -> still_open (g :: l) = still_open l.
  Proof. intros N. unfold still_open. cbn [rev]. destruct (rev l) eqn:E; auto. apply (f_equal (@rev segment)) in E. rewrite rev_involutive in E. now subst. Qed.
  Lemma cut_cons g l kept : comment_free markers g -> cut_at markers l kept -> cut_at markers (g :: l) ((lead g ++ body g ++ DelimSpec.trail g) ++ kept).
  Proof.
    intros F (before & h & after & x & w & t & -> & Fb & I & B & Iw & L & ->). exists (g :: before), h, after, x, w, t.
    split; [reflexivity|]. split; [now constructor|]. split; [exact I|]. split; [exact B|]. split; [exact Iw|]. split; [exact L|]. rewrite texts_cons, <- !app_assoc. reflexivity.
  Qed.
  (** the quote that is open at the end *)
  Definition open_after (lq tq state : str) : str := if negb (is_nil lq) && is_nil tq then lq else state.
  Lemma find_plain line : forall l lq tq, Forall seg_ok l ->
    match find_comment markers line (map triple_of l) [] lq tq with
    | Comment s => exists kept, cut_at markers l kept /\ texts l = kept ++ s /\ s <> []
    | NoComment st a b => st = [] /\ Forall (comment_free markers) l /\ (if is_nil l then a = lq /\ b = tq else open_after a b st = still_open l)
    | Broken => False
    end.
  Proof.
    induction l as [|g l IH]; intros lq tq F; cbn [map find_comment triple_of]; [repeat split; constructor|]. inversion F as [|? ? O F']; subst.
    assert (Go : comment_free markers g -> match find_comment markers line (map triple_of l) [] (lead g) (DelimSpec.trail g) with
      | Comment s => exists kept, cut_at markers (g :: l) kept /\ texts (g :: l) = kept ++ s /\ s <> []
      | NoComment st a b => st = [] /\ Forall (comment_free markers) (g :: l) /\ open_after a b st = still_open (g :: l)
      | Broken => False end).
    { intros C. specialize (IH (lead g) (DelimSpec.trail g) F'). destruct (find_comment _ _ _ _ _ _) as [s|st a b|]; auto.
      - destruct IH as (kept & K & T & N). exists ((lead g ++ body g ++ DelimSpec.trail g) ++ kept). split; [now apply cut_cons|]. split; auto. rewrite texts_cons, T. now rewrite <- !app_assoc.
      - destruct IH as (-> & Fl & E). split; auto. split; [now constructor|]. destruct (is_nil l) eqn:Nl.
        + apply is_nil_iff in Nl. subst l. destruct E as [-> ->]. unfold open_after, still_open. cbn [rev app]. destruct O as [(O1 & O2 & O3)|(O1 & O2)].
          * rewrite O1, O2, O3. reflexivity.
          * rewrite (proj2 (is_nil_false _ _) O1). cbn [negb andb]. destruct (DelimSpec.trail g); cbn [is_nil]; auto.
        + apply is_nil_false in Nl. rewrite still_open_cons by auto. exact E. }
    cbn [is_nil]. destruct O as [(O1 & O2 & O3)|(O1 & O2)].
    - rewrite O1. cbn [is_nil negb]. pose proof (split_once (body g)) as S. destruct (re_split _ _ (body g)) as [[|[x w] r] y].
      + rewrite O1 in Go. apply Go. right. exact S.
      + destruct S as (B & Iw & L). exists x. split; [|split].
        * exists [], g, l, x, w, y. split; [reflexivity|]. split; [constructor|]. split; [exact O2|]. split; [exact B|]. split; [exact Iw|]. split; [exact L|reflexivity].
        * rewrite texts_cons, O1, O3, app_nil_r, B, joined_texts. cbn [app]. now rewrite <- !app_assoc.
        * pose proof (nonempty_in _ _ NE Iw). destruct w; [congruence|discriminate].
    - rewrite (proj2 (is_nil_false _ _) O1). cbn [negb]. apply Go. left. congruence.
  Qed.
  Lemma segments_ok (quote : str -> Prop) (QN : forall q, quote q -> q <> []) : (forall ps out, outside quote ps out -> Forall seg_ok out) /\
    (forall first q ps out, inside_of quote first q ps out -> q <> [] -> match out with [] => False | g :: rest => lead g = first /\ inside g = q /\ texts out = first ++ text_of ps /\
       (DelimSpec.trail g = q \/ DelimSpec.trail g = [] /\ rest = []) /\ Forall seg_ok rest end).
  Proof.
    apply segments_ind.
    - intros ps _. destruct (text_of ps); repeat constructor.
    - intros ps q rest out _ Q I IH. apply Forall_app. split; [destruct (text_of ps); repeat constructor|].
      specialize (IH (QN q Q)). destruct out as [|g out]; [contradiction|]. destruct IH as (L & In & _ & T & F). constructor; auto. right. split; [rewrite L; auto|congruence].
    - intros first q ps _ Q. cbn [lead inside DelimSpec.trail]. split; auto. split; auto. split; [unfold texts; cbn; now rewrite !app_nil_r|]. auto.
    - intros first q ps rest out _ O IH Q. cbn [lead inside DelimSpec.trail]. split; auto. split; auto. split; auto. rewrite texts_cons. cbn [lead body DelimSpec.trail].
      change (texts out) with (shown out). rewrite (proj1 (segments_shown quote) _ _ O), text_of_app, <- !app_assoc. reflexivity.
  Qed.
  (** how lines are cut into segments *)
  Definition segments_of (quotes multi : list str) (escape : str) (state line : str) (segs : list segment) : Prop :=
    exists l y, splits true (quote_separators quotes multi escape) None line l y /\
      match state with
      | [] => outside (fun q => In q (quotes ++ multi)) (pieces l y) segs
      | _ => inside_of (fun q => In q (quotes ++ multi)) [] state (pieces l y) segs
      end.
  Lemma deliver_all bad l : existsb bad l = false -> deliver bad l = (map triple_of l, None).
  Proof. induction l as [|g l IH]; auto. cbn. intros E. apply orb_false_iff in E. destruct E as [-> E]. now rewrite IH. Qed.
  Lemma deliver_bad bad l : existsb bad l = true -> exists k, deliver bad l = (firstn k (map triple_of l), Some SyntaxError).
  Proof.
    induction l as [|g l IH]; cbn [existsb deliver map]; [discriminate|]. destruct (bad g); [now exists 0|]. cbn [orb]. intros E. destruct (IH E) as [k ->]. exists (S k). reflexivity.
  Qed.
  Lemma not_broken line state segs k : from_state line state segs -> find_comment markers line (firstn k segs) state [] [] <> Broken.
  Proof.
    intros F. assert (F' : from_state line state (firstn k segs)).
    { destruct k as [|k]; [destruct state; cbn; auto; constructor|]. destruct state as [|c state], segs as [|[[a b] d] segs]; cbn in *; auto.
      - constructor; [inversion F; auto|]. inversion F as [|? ? F1 F2]; subst. apply Forall_forall. rewrite Forall_forall in F2. intros x I. apply F2. eapply in_firstn; eauto.
      - destruct F as (A & P & Q). split; auto. split; [|intros H; destruct (Q H) as [-> ->]; destruct k; auto].
        apply Forall_forall. unfold plain in P. rewrite Forall_forall in P. intros x I. apply P. eapply in_firstn; eauto. }
    pose proof (find_comment_suffix markers line (firstn k segs) state [] [] F') as H. intros E. rewrite E in H. exact H.
  Qed.
  Lemma comments_uncommented quotes escape multi l : forall state y e, args_ok quotes multi state -> state = [] \/ In state multi -> Forall (fun p : pair => ends_with (i_end (fst p)) (i_line (fst p)) = true) l ->
    comments_loop is_bytes markers quotes escape multi state l None = (y, e) ->
    uncommented markers multi (fun st line segs => if is_nil quotes && is_nil multi then segs = [mkSegment [] line [] []] else segments_of quotes multi escape st line segs)
      (newline_inside is_bytes multi) state l y e.
  Proof.
    set (Sg := fun st line segs => _).
    induction l as [|[i line] l IH]; intros state y e A AM W E; cbn [comments_loop] in E.
    { injection E as <- <-. destruct (is_nil state) eqn:N; [apply is_nil_iff in N; subst; constructor|]. apply uncommented_unterminated. now apply is_nil_false. }
    inversion W as [|? ? Wp Wl]; subst.
    assert (A0 : args_ok quotes multi []).
    { destruct A as [A|[(B & C & D & _) A]]; [left; tauto|right]. split; auto. split; auto. }
    assert (AS : forall q, In q multi -> args_ok quotes multi q).
    { intros q I. destruct A as [(_ & -> & _)|[(B & C & D & _) A]]; [contradiction|]. right. split; auto. split; auto. split; auto. split; auto. right. apply in_app_iff. auto. }
    assert (QN : forall q, In q (quotes ++ multi) -> q <> []) by (destruct A as [(-> & -> & _)|[(B & _) _]]; [intros ? []|exact B]).
    assert (NI : newline_inside is_bytes multi (mkSegment [] line [] []) = false) by reflexivity.
    set (sg := if is_nil quotes && is_nil multi then Ok ([([], line, [])], None) else split_quoted_strings is_bytes line quotes escape multi state) in E.
    assert (S : exists segs, Sg state line segs /\ sg = Ok (deliver (newline_inside is_bytes multi) segs) /\ texts segs = line /\
      match state with [] => Forall seg_ok segs | _ => match segs with [] => False | g :: rest => lead g = [] /\ inside g = state /\ (DelimSpec.trail g = state \/ DelimSpec.trail g = [] /\ rest = []) /\ Forall seg_ok rest end end /\
      from_state line state (map triple_of segs)).
    { subst sg Sg. cbn beta. destruct A as [(-> & -> & ->)|[Q N]].
      - exists [mkSegment [] line [] []]. cbn [is_nil andb]. split; [reflexivity|]. split; [cbn [deliver]; rewrite NI; reflexivity|]. split; [unfold texts; cbn; now rewrite !app_nil_r|].
        split; repeat constructor; auto.
      - assert (is_nil quotes && is_nil multi = false) as -> by (apply not_true_iff_false; intros H; apply andb_true_iff in H; rewrite !is_nil_iff in H; tauto).
        destruct (C39_segments is_bytes line quotes escape multi state Q) as (ll & yy & segs & Sp & Si & E'). exists segs. split; [exists ll, yy; auto|]. split; [exact E'|].
        assert (Fl : text_of (pieces ll yy) = line) by (rewrite pieces_text; exact (splits_flat _ _ _ _ _ _ Sp)).
        destruct state as [|c state].
        + split; [change (texts segs) with (shown segs); rewrite (proj1 (segments_shown _) _ _ Si); exact Fl|]. apply (proj1 (segments_ok _ QN)) in Si. split; auto.
          cbn. unfold plain. rewrite Forall_map. eapply Forall_impl; [|exact Si]. intros g [(O1 & O2 & O3)|(O1 & O2)] H; cbn in *; congruence.
        + pose proof (proj2 (segments_ok _ QN) _ _ _ _ Si ltac:(discriminate)) as K. destruct segs as [|g segs]; [contradiction|]. destruct K as (K1 & K2 & K3 & K4 & K5).
          split; [rewrite K3; exact Fl|]. split; [auto|]. cbn. split; auto. split; [unfold plain; rewrite Forall_map; eapply Forall_impl; [|exact K5]; intros h [(O1 & O2 & O3)|(O1 & O2)] H; cbn in *; congruence|].
          intros H. destruct K4 as [K4|[_ ->]]; [congruence|]. split; auto. rewrite texts_cons, K1, H in K3. cbn in K3. rewrite !app_nil_r in K3. congruence. }
    destruct S as (segs & S & -> & T & O & FS). destruct (existsb (newline_inside is_bytes multi) segs) eqn:X.
    { destruct (deliver_bad _ _ X) as [k D]. rewrite D in E.
      assert (y = [] /\ e = Some SyntaxError) as [-> ->] by (pose proof (not_broken line state (map triple_of segs) k FS); destruct (find_comment _ _ _ _ _ _); try congruence; injection E as <- <-; auto).
      apply uncommented_bad. eapply bad_newline; eauto. }
    rewrite (deliver_all _ _ X) in E.
    assert (Fb : forallb (fun g => negb (newline_inside is_bytes multi g)) segs = true).
    { apply forallb_forall. intros g I. apply negb_true_iff. apply not_true_iff_false. intros H. apply not_true_iff_false in X. apply X. apply existsb_exists. eauto. }
    assert (F : match find_comment markers line (map triple_of segs) state [] [] with
      | Comment s => exists kept, cut_at markers segs kept /\ texts segs = kept ++ s /\ s <> []
      | NoComment st a b => (st = [] \/ st = state) /\ Forall (comment_free markers) segs /\ open_after a b st = still_open segs
      | Broken => False end).
    { destruct state as [|c state].
      - pose proof (find_plain line segs [] [] O) as P. destruct (find_comment _ _ _ _ _ _) as [s|st a b|]; auto. destruct P as (-> & P1 & P2). split; auto. split; auto.
        destruct segs; [destruct P2 as [-> ->]; reflexivity|exact P2].
      - destruct segs as [|g segs]; [contradiction|]. destruct O as (O1 & O2 & O3 & O4).
        cbn [map find_comment triple_of]. rewrite O1. cbn [is_nil negb]. assert (CF : comment_free markers g) by (left; congruence). destruct O3 as [O3|[O3 ->]].
        + rewrite O3. cbn [is_nil negb]. pose proof (find_plain line segs [] (c :: state) O4) as P. revert P. clear E. unfold str.
          destruct (find_comment _ _ _ _ _ _) as [s|st a b|]; intros P; auto.
          * destruct P as (kept & K & Tk & N). exists ((lead g ++ body g ++ DelimSpec.trail g) ++ kept). split; [now apply cut_cons|]. split; auto. rewrite texts_cons, Tk. now rewrite <- !app_assoc.
          * destruct P as (-> & P1 & P2). split; auto. split; [now constructor|]. destruct (is_nil segs) eqn:Nl in P2.
            -- destruct P2 as [-> ->]. apply is_nil_iff in Nl. subst segs. unfold still_open. cbn [rev app]. rewrite O3. reflexivity.
            -- apply is_nil_false in Nl. rewrite still_open_cons by auto. exact P2.
        + rewrite O3. cbn [is_nil negb map find_comment]. assert (body g = line) as ->.
          { rewrite texts_cons, O1, O3 in T. cbn in T. rewrite !app_nil_r in T. exact T. }
          rewrite str_eqb_refl. split; auto. split; [constructor; auto|]. unfold open_after, still_open. cbn. now rewrite O3, O2. }
    destruct (find_comment markers line (map triple_of segs) state [] []) as [s|st a b|]; [| |contradiction].
    - destruct F as (kept & K & Tk & N). rewrite Tk in T. subst line.
      assert (Wf : wf 0 0 (i, kept ++ s)) by (split; [exact Wp|cbn; lia]).
      destruct (clip_trailing_step 0 0 False i kept s Wf) as (q & Eq & St & Sq). rewrite Eq in E.
      destruct (comments_loop is_bytes markers quotes escape multi [] l None) as [y0 e0] eqn:L. unfold yield_ in E. cbn [fst snd] in E. injection E as <- <-.
      apply uncommented_line with (state' := []); [rewrite (Sq N); eapply has_comment; eauto|exact (step_identity _ _ _ _ St)|]. apply IH; auto.
    - destruct F as (Fs & Fc & Fo). unfold open_after in Fo. destruct (negb (is_nil a) && is_nil b) eqn:Op.
      + destruct (str_in a multi) eqn:I.
        * apply str_in_iff in I. destruct (comments_loop is_bytes markers quotes escape multi a l None) as [y0 e0] eqn:L. unfold yield_ in E. cbn [fst snd] in E. injection E as <- <-.
          apply uncommented_line with (state' := a); [|reflexivity|apply IH; auto]. cbn [snd]. rewrite Fo. eapply no_comment; eauto. right. now rewrite <- Fo.
        * injection E as <- <-. apply uncommented_bad. apply str_in_false in I. eapply bad_open; eauto; rewrite <- Fo; auto. apply andb_true_iff in Op. destruct Op as [Op _]. apply negb_true_iff in Op. now apply is_nil_false.
      + destruct (comments_loop is_bytes markers quotes escape multi st l None) as [y0 e0] eqn:L. unfold yield_ in E. cbn [fst snd] in E. injection E as <- <-.
        assert (As : args_ok quotes multi st) by (destruct Fs as [-> | ->]; auto).
        assert (Im : st = [] \/ In st multi).
        { destruct Fs as [-> | ->]; auto. }
        apply uncommented_line with (state' := st); [|reflexivity|apply IH; auto]. cbn [snd]. rewrite Fo. eapply no_comment; eauto. now rewrite <- Fo.
  Qed.
End Comm.
