(** C149: wrap_words uses as few lines as possible, and other laws of it. *)
From Verif Require Import PyBaseProof SplitModel DelimProof DelimProps LinesModel LinesSpec LinesProof WordsModel WordsSpec WordsProof WordsProps.
Local Open Scope nat_scope.

(** words on one line: two blanks after . ? and !, otherwise one *)
Definition ends_sentence (w : str) : bool := match rev w with c :: _ => (c =? 46)%N || (c =? 63)%N || (c =? 33)%N | [] => false end.
Fixpoint after (last : str) (ws : list str) : str :=
  match ws with [] => [] | w :: t => (if ends_sentence last then [32; 32]%N else [32]%N) ++ w ++ after w t end.
Definition line_text (ws : list str) : str := match ws with [] => [] | w :: t => w ++ after w t end.
(** words distributed over lines: each line has a word, and is not too long unless it has only one *)
Definition fits_margin (margin : Z) (ws : list str) : Prop := (Z.of_nat (length (line_text ws)) <= margin)%Z \/ exists w, ws = [w].
Definition layout (margin : Z) (words : list str) (lines : list (list str)) : Prop :=
  concat lines = words /\ Forall (fun ws => ws <> [] /\ fits_margin margin ws) lines.
(** the number of lines of a text *)
Definition newlines (s : str) : nat := length (filter (fun c => (c =? 10)%N) s).
Definition plain_word (is_bytes : bool) (w : str) : Prop := w <> [] /\ isspace is_bytes w = false /\ ~ In 10%N w.

Section Proof.
  Context (is_bytes : bool).
  Notation loop m := (wrap_loop is_bytes m (spaces 2)).
  Lemma newlines_app a b : newlines (a ++ b) = newlines a + newlines b.
  Proof. unfold newlines. now rewrite filter_app, app_length. Qed.
  Lemma newlines_none w : ~ In 10%N w -> newlines w = 0.
  Proof. unfold newlines. induction w as [|c w IH]; intros N; auto. cbn [filter]. destruct (N.eqb_spec c 10) as [->|]; [elim N; left; auto|]. apply IH. intros I. apply N. right; auto. Qed.
  Lemma ends_eq (last : str) : existsb (fun p => ends_with p last) sentence_ending_punctuation = ends_sentence last.
  Proof.
    assert (E : forall p c (r : str), starts_with (rev [p]) (c :: r) = (p =? c)%N) by (intros p c r; cbn [rev app starts_with]; now rewrite andb_true_r).
    unfold ends_with, ends_sentence, sentence_ending_punctuation. cbn [existsb]. destruct (rev last) as [|c r]; [reflexivity|].
    change (u ".") with [46%N]. change (u "?") with [63%N]. change (u "!") with [33%N]. rewrite !E.
    rewrite (N.eqb_sym 46 c), (N.eqb_sym 63 c), (N.eqb_sym 33 c), orb_false_r. now rewrite orb_assoc.
  Qed.
  Definition gaplen (last : str) : Z := if ends_sentence last then 2%Z else 1%Z.
  Lemma gap_pos last : (1 <= gaplen last)%Z. Proof. unfold gaplen. destruct (ends_sentence last); lia. Qed.
  Lemma loop_step m w ws col last : isspace is_bytes w = false ->
    loop m (w :: ws) col last =
      if (m <? Z.of_nat (length w) + gaplen last + col)%Z && negb (col =? 0)%Z then [10%N] :: w :: loop m ws (Z.of_nat (length w)) w
      else if (col =? 0)%Z then w :: loop m ws (Z.of_nat (length w)) w
      else (if ends_sentence last then [32; 32]%N else [32]%N) :: w :: loop m ws (col + gaplen last + Z.of_nat (length w)) w.
  Proof.
    intros S. cbn [wrap_loop]. rewrite S, ends_eq. unfold gaplen. cbn [is_nil negb spaces repeat andb].
    destruct (ends_sentence last); cbn [negb andb]; (destruct (m <? _)%Z; cbn [andb]; destruct (Z.eqb_spec col 0) as [->|]; cbn [negb app]; auto).
  Qed.
  (** How wide the line is after the words [cur], when it is [col] wide and the last word is [last]. *)
  Definition width (col : Z) (last : str) (cur : list str) : Z :=
    if (col =? 0)%Z then Z.of_nat (length (line_text cur)) else (col + Z.of_nat (length (after last cur)))%Z.
  Definition room m col last cur : Prop := cur = [] \/ (width col last cur <= m)%Z \/ (col = 0%Z /\ exists w, cur = [w]).
  Lemma gap_len (last : str) : Z.of_nat (length (if ends_sentence last then [32; 32]%N else [32]%N : str)) = gaplen last.
  Proof. unfold gaplen. now destruct (ends_sentence last). Qed.
  Lemma room_more m col last w cur : (0 <= col)%Z -> w <> [] -> room m col last (w :: cur) ->
    let col2 := if (col =? 0)%Z then Z.of_nat (length w) else (col + gaplen last + Z.of_nat (length w))%Z in
    room m col2 w cur /\ (col <> 0 -> col + gaplen last + Z.of_nat (length w) <= m)%Z.
  Proof.
    intros P N [X|[X|(-> & w' & E)]]; [discriminate| |injection E as _ ->; split; [left; auto|lia]]. cbv zeta. unfold width in X.
    assert (L : 0 < length w) by (destruct w; [congruence|cbn; lia]). pose proof (gap_pos last). destruct (Z.eqb_spec col 0) as [->|C].
    - split; [|lia]. right. left. unfold width. cbn [line_text] in X. rewrite app_length in X. destruct (Z.eqb_spec (Z.of_nat (length w)) 0); lia.
    - cbn [after] in X. rewrite !app_length in X. pose proof (gap_len last) as G. split.
      + right. left. unfold width. destruct (Z.eqb_spec (col + gaplen last + Z.of_nat (length w)) 0); lia.
      + intros _. lia.
  Qed.

  (** Greedy wrapping, col wide on some line, against another layout, which is col2 wide, [slack] lines below. *)
  Lemma fewest m : forall lines cur col col2 last slack, Forall (plain_word is_bytes) (cur ++ concat lines) ->
    Forall (fun ws => ws <> [] /\ fits_margin m ws) lines -> (0 <= col)%Z -> (0 <= col2)%Z -> room m col2 last cur ->
    (0 < slack \/ (col <= col2)%Z) ->
    newlines (concat (loop m (cur ++ concat lines) col last)) <= length lines + slack.
  Proof.
    induction lines as [|line lines IHl]; intros cur; induction cur as [|w cur IHc]; intros col col2 last slack W F P P2 R S.
    - cbn. lia.
    - cbn [app] in *. apply Forall_cons_iff in W. destruct W as ((Nw & Sw & Lw) & W). pose proof (room_more m col2 last w cur P2 Nw R) as (R' & K).
      pose proof (newlines_none w Lw) as Z0. pose proof (gap_pos last) as G. rewrite loop_step by auto.
      assert (Lp : (0 < Z.of_nat (length w))%Z) by (destruct w; [congruence|cbn; lia]).
      set (col2' := if (col2 =? 0)%Z then Z.of_nat (length w) else (col2 + gaplen last + Z.of_nat (length w))%Z) in *.
      assert (C2 : (Z.of_nat (length w) <= col2')%Z) by (unfold col2'; destruct (Z.eqb_spec col2 0); lia).
      destruct ((m <? Z.of_nat (length w) + gaplen last + col)%Z && negb (col =? 0)%Z) eqn:B; [|destruct (Z.eqb_spec col 0) as [->|C]].
      + apply andb_true_iff in B. destruct B as [B1 B2]. apply negb_true_iff, Z.eqb_neq in B2. apply Z.ltb_lt in B1.
        assert (Sp : 0 < slack) by (destruct S as [S|S]; auto; exfalso; assert (col2 <> 0)%Z by lia; specialize (K H); lia).
        cbn [concat]. rewrite !newlines_app, Z0. change (newlines [10%N]) with 1.
        specialize (IHc (Z.of_nat (length w)) col2' w (slack - 1) W F ltac:(lia) ltac:(lia) R' ltac:(right; lia)). cbn [length concat] in IHc |- *. lia.
      + cbn [concat]. rewrite newlines_app, Z0. apply (IHc (Z.of_nat (length w)) col2' w slack W F ltac:(lia) ltac:(lia) R'). right. lia.
      + cbn [concat]. rewrite !newlines_app, Z0. rewrite (newlines_none (if ends_sentence last then _ else _)) by (destruct (ends_sentence last); cbn; intuition discriminate).
        apply (IHc (col + gaplen last + Z.of_nat (length w))%Z col2' w slack W F ltac:(lia) ltac:(lia) R').
        destruct S as [S|S]; [left; auto|right]. unfold col2'. destruct (Z.eqb_spec col2 0); lia.
    - cbn [app concat length] in *. apply Forall_cons_iff in F. destruct F as ((Nl & Fl) & F). enough (X : newlines (concat (loop m (line ++ concat lines) col last)) <= length lines + (1 + slack)) by lia.
      apply (IHl line col 0%Z last (1 + slack)); auto; try lia. right. unfold width. cbn. destruct Fl as [Fl|[w ->]]; eauto.
    - cbn [app] in *. apply Forall_cons_iff in W. destruct W as ((Nw & Sw & Lw) & W). pose proof (room_more m col2 last w cur P2 Nw R) as (R' & K).
      pose proof (newlines_none w Lw) as Z0. pose proof (gap_pos last) as G. rewrite loop_step by auto.
      assert (Lp : (0 < Z.of_nat (length w))%Z) by (destruct w; [congruence|cbn; lia]).
      set (col2' := if (col2 =? 0)%Z then Z.of_nat (length w) else (col2 + gaplen last + Z.of_nat (length w))%Z) in *.
      assert (C2 : (Z.of_nat (length w) <= col2')%Z) by (unfold col2'; destruct (Z.eqb_spec col2 0); lia).
      destruct ((m <? Z.of_nat (length w) + gaplen last + col)%Z && negb (col =? 0)%Z) eqn:B; [|destruct (Z.eqb_spec col 0) as [->|C]].
      + apply andb_true_iff in B. destruct B as [B1 B2]. apply negb_true_iff, Z.eqb_neq in B2. apply Z.ltb_lt in B1.
        assert (Sp : 0 < slack) by (destruct S as [S|S]; auto; exfalso; assert (col2 <> 0)%Z by lia; specialize (K H); lia).
        cbn [concat]. rewrite !newlines_app, Z0. change (newlines [10%N]) with 1.
        specialize (IHc (Z.of_nat (length w)) col2' w (slack - 1) W F ltac:(lia) ltac:(lia) R' ltac:(right; lia)). cbn [length concat] in IHc |- *. lia.
      + cbn [concat]. rewrite newlines_app, Z0. apply (IHc (Z.of_nat (length w)) col2' w slack W F ltac:(lia) ltac:(lia) R'). right. lia.
      + cbn [concat]. rewrite !newlines_app, Z0. rewrite (newlines_none (if ends_sentence last then _ else _)) by (destruct (ends_sentence last); cbn; intuition discriminate).
        apply (IHc (col + gaplen last + Z.of_nat (length w))%Z col2' w slack W F ltac:(lia) ltac:(lia) R').
        destruct S as [S|S]; [left; auto|right]. unfold col2'. destruct (Z.eqb_spec col2 0); lia.
  Qed.

  Notation below lines := (concat (map (fun l => [10%N] ++ line_text l) lines)).
  Lemma greedy_lines m : forall ws col last, Forall (plain_word is_bytes) ws -> (0 <= col)%Z ->
    exists cur lines, ws = cur ++ concat lines /\ Forall (fun l => l <> [] /\ fits_margin m l) lines /\ room m col last cur /\
      concat (loop m ws col last) = (if (col =? 0)%Z then line_text cur else after last cur) ++ below lines /\ (col = 0%Z -> ws <> [] -> cur <> []).
  Proof.
    induction ws as [|w ws IH]; intros col last W P.
    { exists [], []. repeat split; auto; [left; auto|]. now destruct (col =? 0)%Z. }
    apply Forall_cons_iff in W. destruct W as ((Nw & Sw & Lw) & W). rewrite loop_step by auto. pose proof (gap_pos last) as G. pose proof (gap_len last) as GL.
    assert (Lp : (0 < Z.of_nat (length w))%Z) by (destruct w; [congruence|cbn; lia]).
    destruct ((m <? Z.of_nat (length w) + gaplen last + col)%Z && negb (col =? 0)%Z) eqn:B.
    - destruct (IH (Z.of_nat (length w)) w W ltac:(lia)) as (cur & lines & -> & F & R & E & _). apply andb_true_iff in B. destruct B as [B1 B2]. apply negb_true_iff in B2. rewrite B2.
      exists [], ((w :: cur) :: lines). split; [reflexivity|]. split; [|split; [left; auto|split; [|intros ->; discriminate]]].
      + constructor; auto. split; [discriminate|]. unfold fits_margin. destruct R as [->|[R|[R _]]]; [eauto| |lia]. left. unfold width in R.
        destruct (Z.eqb_spec (Z.of_nat (length w)) 0); [lia|]. cbn [line_text]. rewrite app_length. lia.
      + cbn [concat map after line_text app]. rewrite E. destruct (Z.eqb_spec (Z.of_nat (length w)) 0); [lia|]. now rewrite <- app_assoc.
    - destruct (Z.eqb_spec col 0) as [->|C].
      + destruct (IH (Z.of_nat (length w)) w W ltac:(lia)) as (cur & lines & -> & F & R & E & _). exists (w :: cur), lines. split; [reflexivity|]. split; auto. split; [|split; [|discriminate]].
        * destruct R as [->|[R|[R _]]]; [right; right; eauto| |lia]. right. left. unfold width in *. destruct (Z.eqb_spec (Z.of_nat (length w)) 0); [lia|]. cbn [line_text]. rewrite app_length. cbn. lia.
        * cbn [concat line_text]. rewrite E. destruct (Z.eqb_spec (Z.of_nat (length w)) 0); [lia|]. now rewrite <- app_assoc.
      + rewrite andb_false_iff, Z.ltb_ge in B. assert (Fit : (Z.of_nat (length w) + gaplen last + col <= m)%Z) by (destruct B as [B|B]; auto; discriminate).
        destruct (IH (col + gaplen last + Z.of_nat (length w))%Z w W ltac:(lia)) as (cur & lines & -> & F & R & E & _). exists (w :: cur), lines. split; [reflexivity|]. split; auto. split; [|split; [|intros ->; lia]].
        * right. left. unfold width in *. destruct (Z.eqb_spec col 0); [lia|]. cbn [after]. rewrite !app_length, !Nat2Z.inj_add, GL.
          destruct R as [->|[R|[R _]]]; [cbn; lia| |lia]. unfold width in R. destruct (Z.eqb_spec (col + gaplen last + Z.of_nat (length w)) 0); lia.
        * cbn [concat after]. rewrite E. destruct (Z.eqb_spec (col + gaplen last + Z.of_nat (length w)) 0); [lia|]. now rewrite <- !app_assoc.
  Qed.
  Lemma join_below l lines : join [10%N] (map line_text (l :: lines)) = line_text l ++ below lines.
  Proof.
    revert l. induction lines as [|l2 lines IH]; intros l; [cbn; now rewrite app_nil_r|]. specialize (IH l2). cbn [map] in *.
    change (join [10%N] (line_text l :: line_text l2 :: map line_text lines)) with (line_text l ++ [10%N] ++ join [10%N] (line_text l2 :: map line_text lines)).
    rewrite IH. cbn [concat]. now rewrite !app_assoc.
  Qed.
End Proof.

Section Statements.
  Context (is_bytes : bool).
  (** What wrap_words returns are the words distributed over lines that respect the margin... *)
  Theorem C149_layout : forall words margin two_spaces out, Forall (plain_word is_bytes) words ->
    wrap_words is_bytes words margin two_spaces = Ok out -> exists lines, layout margin words lines /\ out = join [10%N] (map line_text lines) /\ newlines out + 1 = length lines.
  Proof.
    intros words margin ts out W E. unfold wrap_words in E. destruct words as [|w0 ws0]; [discriminate|]. set (words := w0 :: ws0) in *.
    apply Ok_inj in E. subst out. destruct (greedy_lines is_bytes margin words 0 [] W ltac:(lia)) as (cur & lines & EW & F & R & E & N). cbn [Z.eqb] in E.
    assert (Nc : cur <> []) by (apply N; [reflexivity|discriminate]). exists (cur :: lines).
    assert (NL : forall l, Forall (plain_word is_bytes) l -> newlines (line_text l) = 0).
    { assert (A : forall l last, Forall (plain_word is_bytes) l -> newlines (after last l) = 0).
      { induction l as [|w l IH]; intros last Fl; [reflexivity|]. apply Forall_cons_iff in Fl. destruct Fl as ((_ & _ & Lw) & Fl). cbn [after]. rewrite !newlines_app, (newlines_none w Lw), IH by auto.
        rewrite (newlines_none (if ends_sentence last then _ else _)); auto. destruct (ends_sentence last); cbn; intuition discriminate. }
      intros [|w l] Fl; [reflexivity|]. apply Forall_cons_iff in Fl. destruct Fl as ((_ & _ & Lw) & Fl). cbn [line_text]. now rewrite newlines_app, (newlines_none w Lw), A. }
    split; [|split].
    - split; [auto|]. constructor; auto. split; auto. unfold fits_margin. destruct R as [R|[R|[_ R]]]; [congruence|left; exact R|auto].
    - rewrite join_below. exact E.
    - rewrite E, newlines_app. rewrite EW in W. apply Forall_app in W. destruct W as [W1 W2]. rewrite NL by auto. cbn [length].
      assert (X : forall ls, Forall (plain_word is_bytes) (concat ls) -> newlines (concat (map (fun l => [10%N] ++ line_text l) ls)) = length ls).
      { induction ls as [|l ls IH]; intros Fl; [reflexivity|]. cbn [concat] in Fl. apply Forall_app in Fl. destruct Fl as [F1 F2]. cbn [map concat]. rewrite !newlines_app, NL, IH by auto. reflexivity. }
      rewrite X by auto. lia.
  Qed.
  (** ... and no other distribution has fewer lines. *)
  Theorem C149_fewest_lines : forall words margin two_spaces out lines, Forall (plain_word is_bytes) words ->
    wrap_words is_bytes words margin two_spaces = Ok out -> layout margin words lines -> newlines out + 1 <= length lines.
  Proof.
    intros words margin ts out lines W E [C F]. unfold wrap_words in E. destruct words as [|w0 ws0]; [discriminate|]. set (words := w0 :: ws0) in *.
    apply Ok_inj in E. subst out. destruct lines as [|line lines]; [discriminate C|]. apply Forall_cons_iff in F. destruct F as ((Nl & Fl) & F). cbn [concat] in C.
    rewrite <- C in W. pose proof (fewest is_bytes margin lines line 0 0 [] 0 W F ltac:(lia) ltac:(lia)) as X. cbn [length]. rewrite C in X.
    enough (newlines (concat (wrap_loop is_bytes margin (spaces 2) words 0 [])) <= length lines + 0) by lia. apply X; [|right; lia].
    unfold room, width. cbn [Z.eqb]. destruct Fl as [Fl|[w ->]]; eauto.
  Qed.
  (** With a wider margin there are not more lines. *)
  Theorem C149_wider_margin : forall words margin margin' two_spaces out out', Forall (plain_word is_bytes) words -> (margin <= margin')%Z ->
    wrap_words is_bytes words margin two_spaces = Ok out -> wrap_words is_bytes words margin' two_spaces = Ok out' -> newlines out' <= newlines out.
  Proof.
    intros words m m' ts out out' W M E E'. destruct (C149_layout words m ts out W E) as (lines & (C & F) & _ & L).
    assert (X : newlines out' + 1 <= length lines); [|lia]. apply (C149_fewest_lines words m' ts out' lines W E'). split; auto.
    rewrite Forall_forall in *. intros l I. destruct (F l I) as [N [H|H]]; split; auto; [left; lia|right; auto].
  Qed.
  (** If the words have room on one line they are put on one line. *)
  Theorem C149_one_line : forall words margin two_spaces, Forall (plain_word is_bytes) words -> words <> [] ->
    (Z.of_nat (length (line_text words)) <= margin)%Z -> wrap_words is_bytes words margin two_spaces = Ok (line_text words).
  Proof.
    intros words margin ts W N M. assert (E : exists out, wrap_words is_bytes words margin ts = Ok out) by (destruct words; [congruence|eexists; reflexivity]). destruct E as [out E].
    destruct (C149_layout words margin ts out W E) as (lines & (C & F) & -> & L). rewrite E. f_equal.
    pose proof (C149_fewest_lines words margin ts _ [words] W E) as X. cbn [length] in X.
    assert (Y : layout margin words [words]) by (split; [cbn; now rewrite app_nil_r|repeat constructor; auto; now left]). specialize (X Y).
    destruct lines as [|l [|l2 lines]]; cbn [length] in L; [lia| |lia]. cbn [concat] in C. rewrite app_nil_r in C. now subst l.
  Qed.
  (** White space among the words starts afresh: the words before and after it can be wrapped
      separately (so paragraphs can be). *)
  Theorem C149_parts : forall before blank after margin two_spaces first second, isspace is_bytes blank = true ->
    wrap_words is_bytes before margin two_spaces = Ok first -> wrap_words is_bytes after margin two_spaces = Ok second ->
    wrap_words is_bytes (before ++ blank :: after) margin two_spaces = Ok (first ++ blank ++ second).
  Proof.
    intros before blank aft m ts first second S E1 E2. unfold wrap_words in *. destruct before as [|b0 bs0]; [discriminate|]. destruct aft as [|a0 as0]; [discriminate|].
    apply Ok_inj in E1, E2. subst first second. set (before := b0 :: bs0). set (aft := a0 :: as0).
    assert (K : wrap_loop is_bytes m (spaces 2) aft 0 blank = wrap_loop is_bytes m (spaces 2) aft 0 []).
    { destruct (isspace is_bytes a0) eqn:Sa; unfold aft; [cbn [wrap_loop]; now rewrite Sa|]. rewrite !loop_step by auto. cbn [Z.eqb negb]. now rewrite !andb_false_r. }
    assert (X : forall ws col last, concat (wrap_loop is_bytes m (spaces 2) (ws ++ blank :: aft) col last) =
      concat (wrap_loop is_bytes m (spaces 2) ws col last) ++ blank ++ concat (wrap_loop is_bytes m (spaces 2) aft 0 [])).
    { induction ws as [|w ws IH]; intros col last; [cbn [app wrap_loop]; rewrite S, K; reflexivity|]. cbn [app].
      destruct (isspace is_bytes w) eqn:Sw; [cbn [wrap_loop concat]; rewrite Sw; cbn [concat]; rewrite IH; now rewrite <- app_assoc|].
      rewrite !loop_step by auto. destruct (_ && _); [|destruct (col =? 0)%Z]; cbn [concat]; rewrite IH; now rewrite <- !app_assoc. }
    exact (f_equal Ok (X before 0%Z [])).
  Qed.
End Statements.
Print Assumptions C149_layout.
Print Assumptions C149_fewest_lines.
Print Assumptions C149_wider_margin.
Print Assumptions C149_one_line.
Print Assumptions C149_parts.

Example C149_witness : let words := [u "one"; u "two."; u "three"; u "four"] in
  wrap_words false words 10 true = Ok (u "one two." ++ [10%N] ++ u "three four") /\ wrap_words false words 20 true = Ok (u "one two.  three four") /\
  layout 10 words [[u "one"; u "two."]; [u "three"; u "four"]] /\ layout 10 words [[u "one"]; [u "two."]; [u "three"; u "four"]] /\ Forall (plain_word false) words.
Proof.
  cbv zeta. split; [reflexivity|]. split; [reflexivity|].
  assert (A : forall lines, forallb (fun ws => negb (is_nil ws) && (Z.of_nat (length (line_text ws)) <=? 10)%Z) lines = true -> Forall (fun ws => ws <> [] /\ fits_margin 10 ws) lines).
  { intros lines H. rewrite forallb_forall in H. apply Forall_forall. intros x I. specialize (H x I). apply andb_true_iff in H. destruct H as [H1 H2]. apply Z.leb_le in H2. split; [intros ->; discriminate|now left]. }
  split; [split; [reflexivity|apply A; reflexivity]|]. split; [split; [reflexivity|apply A; reflexivity]|].
  repeat constructor; try discriminate; cbn; intuition discriminate.
Qed.
