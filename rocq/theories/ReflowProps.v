(** C127: text that has been wrapped can be split again, to the same words. *)
From Verif Require Import PyStrProof LinesModel WordsModel WordsSpec WordsProps TextCodeModel TextCodeSpec TextCodeProof TextCodeProof2 TextCodeProof3 TextCodeProps.

Notation nn := [10%N; 10%N] (only parsing).
Notation nl1 := [10%N] (only parsing).

Lemma join_cons (x : str) l : l <> [] -> join nl1 (x :: l) = x ++ nl1 ++ join nl1 l.
Proof. destruct l; [congruence|reflexivity]. Qed.
Lemma join_app a b : a <> [] -> b <> [] -> join nl1 (a ++ b) = join nl1 a ++ nl1 ++ join nl1 b.
Proof.
  induction a as [|x a IH]; intros A B; [congruence|]. destruct a as [|y a]; [cbn [app]; apply join_cons; exact B|].
  change ((x :: y :: a) ++ b) with (x :: (y :: a) ++ b). rewrite join_cons by discriminate. rewrite IH by (auto; discriminate). rewrite (join_cons x (y :: a)) by discriminate. rewrite <- !app_assoc. reflexivity.
Qed.

Section Reflow.
  Context (is_bytes : bool) (tab_width : nat) (allow_code : bool) (code_indent : nat) (conv : bool) (margin : Z).
  Hypothesis TW : 0 < tab_width.
  Notation is_class := (is_class is_bytes tab_width allow_code code_indent conv).
  Notation word_text := (word_text is_bytes).
  Notation blank_text := (blank_text is_bytes).
  Notation blank := (isspace is_bytes).
  Notation wrapped := (wrapped true margin blank).
  Notation filled := (filled true margin).
  Notation white := (white is_bytes).

  Lemma white_10 : white 10%N = true. Proof. destruct is_bytes; reflexivity. Qed.
  Lemma white_32 : white 32%N = true. Proof. destruct is_bytes; reflexivity. Qed.
  Lemma word_not_blank w : word_text w -> blank w = false.
  Proof. intros (N & F). unfold isspace. destruct w as [|c w]; [congruence|]. inversion F; subst. cbn. rewrite H1. reflexivity. Qed.
  Lemma word_no_nl w : word_text w -> ~ In 10%N w.
  Proof. intros (_ & F) I. rewrite Forall_forall in F. specialize (F _ I). rewrite white_10 in F. discriminate. Qed.

  (** ** tokens *)
  (** words, each with the whitespace before it, which only the first may lack *)
  Definition good (toks : list (str * str)) : Prop :=
    Forall (fun t => blank_text (fst t) /\ word_text (snd t)) toks /\ Forall (fun t => fst t <> []) (tl toks).
  Lemma good_tail t toks : good (t :: toks) -> good toks.
  Proof. intros (A & B). inversion A; subst. cbn [tl] in B. split; auto. destruct toks; [constructor|inversion B; auto]. Qed.
  Lemma good_tokens toks : good toks -> tokens_of is_bytes (joined toks) toks.
  Proof.
    induction toks as [|[l w] toks IH]; intros G; [constructor; constructor|]. cbn [joined flat_map fst snd]. rewrite <- app_assoc.
    pose proof G as (A & B). inversion A as [|? ? (BL & WT) A']; subst. cbn in BL, WT. constructor; auto; [|apply IH, (good_tail _ _ G)].
    intros c r E. destruct toks as [|[l2 w2] toks]; [discriminate|]. cbn [tl] in B. inversion B as [|? ? NE _]; subst. cbn [fst] in NE. destruct l2 as [|c2 l2]; [congruence|]. cbn in E. injection E as <- _.
    inversion A' as [|? ? (BL2 & _) _]; subst. inversion BL2; auto.
  Qed.
  Lemma tokens_good line toks : tokens_of is_bytes line toks -> good toks.
  Proof.
    induction 1 as [|l w rest toks BL WT RW T IH]; [split; constructor|]. destruct IH as (A & B). split; [constructor; auto|]. cbn [tl].
    destruct toks as [|[l2 w2] toks]; [constructor|]. constructor; [|exact B]. cbn. inversion T as [|l3 w3 rest3 toks3 BL3 WT3]; subst. intros ->. destruct WT3 as (NE & F). destruct w2 as [|c w2]; [congruence|].
    specialize (RW c (w2 ++ rest3) eq_refl). inversion F; subst. congruence.
  Qed.
  Lemma joined_app a b : joined (a ++ b) = joined a ++ joined b.
  Proof. unfold joined. apply flat_map_app. Qed.

  (** ** a line of words *)
  Lemma line_of_good ws text last : line_of true ws text last -> Forall word_text ws -> exists toks, good toks /\ map snd toks = ws /\ joined toks = text /\ (exists w t, toks = ([], w) :: t) /\ ~ In 10%N text.
  Proof.
    induction 1 as [w|ws last w L IH|ws text last g w L IH NE G]; intros F.
    - inversion F; subst. exists [([], w)]. split; [split; [constructor; [split; [constructor|assumption]|constructor]|constructor]|]. split; [reflexivity|]. split; [cbn; now rewrite app_nil_r|]. split; [now exists w, []|]. now apply word_no_nl.
    - apply Forall_app in F. destruct F as (F & Fw). destruct (IH F) as (toks & Gd & _ & J & (w1 & t & ->) & _). exfalso. destruct Gd as (A & _). inversion A as [|? ? (_ & (N & _)) _]; subst. cbn in J, N. destruct w1; [congruence|discriminate].
    - apply Forall_app in F. destruct F as (F & Fw). inversion Fw as [|? ? WT _]; subst. destruct (IH F) as (toks & (A & B) & M & J & (w1 & t & ->) & N).
      assert (GB : blank_text g /\ g <> [] /\ ~ In 10%N g).
      { destruct G as [(_ & _ & ->)|(_ & ->)]; (split; [repeat constructor; apply white_32|split; [discriminate|]]); intros I; repeat destruct I as [I|I]; try discriminate; destruct I. }
      destruct GB as (GB & GN & G10). exists ((([], w1) :: t) ++ [(g, w)]). split; [|split; [|split; [|split]]].
      + split; [apply Forall_app; split; auto|]. cbn [app tl]. cbn [tl] in B. apply Forall_app. split; auto.
      + rewrite map_app. f_equal. exact M.
      + rewrite joined_app. f_equal; [exact J|]. cbn. now rewrite app_nil_r.
      + now exists w1, (t ++ [(g, w)]).
      + intros I. apply in_app_or in I. destruct I as [I|I]; [auto|]. apply in_app_or in I. destruct I as [I|I]; [auto|]. now apply (word_no_nl w).
  Qed.
  Lemma line_of_nonempty ws text last : line_of true ws text last -> ws <> [].
  Proof. induction 1; [discriminate| |]; destruct ws; discriminate. Qed.
  Lemma line_class ws text last : (allow_code = true -> 0 < code_indent) -> line_of true ws text last -> Forall word_text ws -> is_class text (Text ws) /\ ~ In 10%N text.
  Proof.
    intros CI L F. destruct (line_of_good _ _ _ L F) as (toks & G & M & J & (w & t & ->) & N). split; auto. subst ws text. constructor; [now apply good_tokens|]. intros A. exists 0. split; [reflexivity|]. now apply CI.
  Qed.
  Lemma filled_classes ws lines : (allow_code = true -> 0 < code_indent) -> filled ws lines -> Forall word_text ws -> ws <> [] ->
    exists wss, wss <> [] /\ concat wss = ws /\ Forall2 is_class lines (map Text wss) /\ Forall (fun l => ~ In 10%N l) lines /\ lines <> [].
  Proof.
    intros CI H. induction H as [|ws text last L _|ws text last w rest lines L _ _ H IH]; intros F NE; [congruence| |].
    - destruct (line_class _ _ _ CI L F) as (C & N). exists [ws]. cbn. rewrite app_nil_r. repeat split; auto; discriminate.
    - apply Forall_app in F. destruct F as (F1 & F2). destruct (line_class _ _ _ CI L F1) as (C & N). destruct (IH F2 ltac:(discriminate)) as (wss & NW & E & FC & NL & NLi). exists (ws :: wss). cbn. rewrite E. repeat split; auto; try discriminate. 
  Qed.
  Lemma filled_exists ws : ws <> [] -> (forall w, In w ws -> blank w = false) -> exists lines, filled ws lines.
  Proof.
    intros NE NB. destruct (wrap_words is_bytes ws margin true) as [o|e] eqn:E.
    - apply C45_wrap in E. destruct E as (_ & H). inversion H as [ws' lines _ FI E1 E2|ws' lines b rest out _ FI B _ E1 E2]; subst; [eauto|]. rewrite NB in B; [discriminate|]. apply in_or_app. right. left. reflexivity.
    - destruct ws; [congruence|discriminate].
  Qed.

  (** ** what follows a block: nothing, or a paragraph break and other blocks *)
  Record after_ok (tw : list str) (to : str) (tl : list str) (tc : list class) (bs : list block) : Prop := {
    a_wrapped : forall seg ls, (forall w, In w seg -> blank w = false) -> filled seg ls -> wrapped (seg ++ tw) (join nl1 ls ++ to);
    a_lines : forall x, join nl1 (x :: tl) = x ++ to;
    a_nl : Forall (fun l => ~ In 10%N l) tl;
    a_class : Forall2 is_class tl tc;
    a_group : group tc = bs;
    a_start : tc = [] \/ exists r, tc = Blank :: r
  }.
  Record laid (ws : list str) (out : str) (lines : list str) (classes : list class) (bs : list block) : Prop := {
    l_wrapped : wrapped ws out;
    l_lines : lines_of out lines;
    l_class : Forall2 is_class lines classes;
    l_group : group classes = bs
  }.
  Lemma after_end : after_ok [] [] [] [] [].
  Proof. split; auto; [|intros x; cbn; now rewrite app_nil_r]. intros seg ls NB FI. rewrite !app_nil_r. now apply wrapped_end. Qed.
  Lemma class_empty : is_class [] Blank.
  Proof. constructor. constructor. constructor. Qed.
  Lemma after_break ws out lines classes bs : laid ws out lines classes bs -> after_ok (nn :: ws) (nn ++ out) ([] :: lines) (Blank :: classes) bs.
  Proof.
    intros [W (NE & J & N) C G]. split; [| | | | |right; eauto].
    - intros seg ls NB FI. apply wrapped_blank; auto. unfold isspace. cbn. now rewrite white_10.
    - intros x. rewrite (join_cons x) by discriminate. pose proof (join_cons [] lines NE) as JJ. rewrite J in JJ. exact (f_equal (fun z => x ++ nl1 ++ z) JJ).
    - constructor; auto.
    - constructor; [apply class_empty|exact C].
    - exact G.
  Qed.
  Lemma group_texts wss tc : wss <> [] -> tc = [] \/ (exists r, tc = Blank :: r) -> group (map Text wss ++ tc) = Paragraph (concat wss) :: group tc.
  Proof.
    induction wss as [|ws wss IH]; intros NE S; [congruence|]. cbn [map app group concat]. destruct wss as [|ws2 wss].
    - cbn [map app concat]. rewrite app_nil_r. destruct S as [->|(r & ->)]; [reflexivity|]. cbn [group]. destruct (group r) as [|[] bs]; reflexivity.
    - rewrite IH by (auto; discriminate). reflexivity.
  Qed.
  Lemma paragraph_laid ws tw to tl tc bs : (allow_code = true -> 0 < code_indent) -> ws <> [] -> Forall word_text ws -> after_ok tw to tl tc bs -> exists out lines classes, laid (ws ++ tw) out lines classes (Paragraph ws :: bs).
  Proof.
    intros CI NE F [AW AL AN AC AG AS].
    assert (NB : forall w, In w ws -> blank w = false) by (intros w I; apply word_not_blank; rewrite Forall_forall in F; auto).
    destruct (filled_exists ws NE NB) as (ls & FI). destruct (filled_classes ws ls CI FI F NE) as (wss & NW & E & FC & NL & NLi).
    exists (join nl1 ls ++ to), (ls ++ tl), (map Text wss ++ tc). split.
    - now apply AW.
    - split; [destruct ls; [congruence|discriminate]|]. split; [|apply Forall_app; auto].
      destruct (exists_last NLi) as (ls' & x & ->). rewrite <- app_assoc. cbn [app]. destruct ls' as [|y ls']; [apply AL|].
      rewrite !join_app by discriminate. rewrite AL. cbn [join]. rewrite <- !app_assoc. reflexivity.
    - apply Forall2_app; auto.
    - rewrite group_texts by auto. now rewrite E, AG.
  Qed.
  Definition code_line (t : str) : Prop := is_class t (Code t) /\ blank t = false /\ ~ In 10%N t.
  Lemma blanks_repeat k t r : blanks (repeat Blank k ++ Code t :: r) = k.
  Proof. induction k; cbn; auto. Qed.
  Lemma group_repeat k r : group (repeat Blank k ++ r) = group r.
  Proof. induction k; cbn; auto. Qed.
  Lemma code_laid f more tw to tl tc bs : code_line f -> Forall (fun t => 0 < fst t /\ code_line (snd t)) more -> after_ok tw to tl tc bs -> (forall f' m b, bs <> CodeBlock f' m :: b) ->
    exists out lines classes, laid (block_words (CodeBlock f more) ++ tw) out lines classes (CodeBlock f more :: bs) /\ (exists r, classes = Code f :: r).
  Proof.
    intros CF FM A NB. revert f CF. induction FM as [|[n t] more (P & CT) FM IH]; intros f (CF & BF & NF).
    - destruct A as [AW AL AN AC AG AS]. exists (f ++ to), (f :: tl), (Code f :: tc). split; [|eauto]. split.
      + cbn [block_words flat_map app]. apply (AW [f] [f]); [intros w [<-|[]]; exact BF|]. apply (filled_last _ _ [f] f f); [constructor|]. right. exists [], f. split; auto. intros x [].
      + split; [discriminate|]. split; [apply AL|constructor; auto].
      + constructor; auto.
      + cbn [group]. rewrite AG. destruct bs as [|[|f' m] b]; auto. now destruct (NB f' m b).
    - cbn [fst snd] in *. destruct (IH t CT) as (out & lines & classes & [W (NE & J & N) C G] & (r & EC)). destruct n as [|n]; [lia|]. clear P.
      exists (f ++ nl1 ++ repeat 10%N n ++ out), (f :: repeat [] n ++ lines), (Code f :: repeat Blank n ++ classes). split; [|eauto].
      assert (WR : forall k, wrapped (repeat nl1 k ++ block_words (CodeBlock t more) ++ tw) (repeat 10%N k ++ out)).
      { induction k as [|k IHk]; [exact W|]. cbn [repeat app]. change (10%N :: repeat 10%N k ++ out) with (join nl1 [] ++ nl1 ++ repeat 10%N k ++ out). apply (wrapped_blank _ _ _ [] [] nl1); auto; [intros w []|constructor|]. unfold isspace. cbn. now rewrite white_10. }
      assert (JR : forall k, join nl1 (repeat [] k ++ lines) = repeat 10%N k ++ out).
      { induction k as [|k IHk]; [exact J|]. cbn [repeat app]. rewrite join_cons by (destruct k; [exact NE|discriminate]). rewrite IHk. reflexivity. }
      split.
      + cbn [block_words flat_map fst snd repeat]. change (f :: ((nl1 :: repeat nl1 n) ++ [t]) ++ flat_map (fun t0 => repeat nl1 (fst t0) ++ [snd t0]) more) with ([f] ++ ((nl1 :: repeat nl1 n) ++ [t]) ++ flat_map (fun t0 => repeat nl1 (fst t0) ++ [snd t0]) more).
        rewrite <- !app_assoc. cbn [app]. specialize (WR n). cbn [block_words] in WR. cbn [app] in WR.
        apply (wrapped_blank _ _ _ [f] [f] nl1); [intros w [<-|[]]; exact BF|apply (filled_last _ _ [f] f f); [constructor|right; exists [], f; split; auto; intros x []]|unfold isspace; cbn; now rewrite white_10|exact WR].
      + split; [discriminate|]. split; [rewrite join_cons by (destruct n; [exact NE|discriminate]); now rewrite JR|]. constructor; auto. apply Forall_app. split; auto. apply Forall_forall. intros x I. apply repeat_spec in I. subst x. intros [].
      + constructor; auto. apply Forall2_app; auto. clear. induction n; cbn; constructor; auto. apply class_empty.
      + cbn [group]. rewrite group_repeat, G. subst classes. rewrite blanks_repeat. reflexivity.
  Qed.
  (** the blocks of a text *)
  Inductive blocks_ok : list block -> Prop :=
  | blocks_nil : blocks_ok []
  | blocks_paragraph ws bs : (allow_code = true -> 0 < code_indent) -> ws <> [] -> Forall word_text ws -> blocks_ok bs -> blocks_ok (Paragraph ws :: bs)
  | blocks_code f more bs : code_line f -> Forall (fun t => 0 < fst t /\ code_line (snd t)) more -> blocks_ok bs -> (forall f' m b, bs <> CodeBlock f' m :: b) -> blocks_ok (CodeBlock f more :: bs).
  Lemma blocks_laid bs : blocks_ok bs -> exists out lines classes, laid (all_words bs) out lines classes bs.
  Proof.
    intros H. destruct bs as [|b bs].
    { exists [], [[]], [Blank]. split; [|split; [discriminate|split; [reflexivity|repeat constructor; intros []]]|constructor; [apply class_empty|constructor]|reflexivity].
      apply (wrapped_end _ _ _ [[]] [[]]); [intros w [<-|[]]; reflexivity|]. apply (filled_last _ _ _ [] []); [constructor|]. right. exists [], []. split; auto. intros x []. }
    assert (G : forall bs b, blocks_ok (b :: bs) -> exists out lines classes, laid (block_words b ++ flat_map (fun b => nn :: block_words b) bs) out lines classes (b :: bs)); [|exact (G bs b H)].
    clear b bs H. induction bs as [|b2 bs IH]; intros b H.
    - inversion H; subst; cbn [flat_map].
      + apply (paragraph_laid ws [] [] [] [] []); auto. apply after_end.
      + destruct (code_laid f more [] [] [] [] []) as (o & l & c & L & _); [assumption|assumption|apply after_end|intros; discriminate|eauto].
    - assert (H2 : blocks_ok (b2 :: bs)) by (inversion H; auto). destruct (IH b2 H2) as (o & l & c & L). apply after_break in L.
      inversion H; subst; cbn [flat_map].
      + eapply paragraph_laid; eauto.
      + edestruct code_laid as (o' & l' & c' & L' & _); [eassumption|eassumption|exact L|eassumption|eauto].
  Qed.

  (** ** every text has such blocks *)
  Lemma column_expand l : forall col c, Forall (fun c => c = 9%N \/ c = 32%N) l -> column tab_width l col = Some c -> expand tab_width l col = repeat 32%N (c - col) /\ col <= c /\ (l <> [] -> col < c).
  Proof.
    induction l as [|x l IH]; intros col c F E; cbn [column] in E.
    - injection E as <-. rewrite Nat.sub_diag. split; auto. split; auto. congruence.
    - inversion F as [|? ? Hx F']; subst. cbn [expand]. destruct Hx as [-> | ->].
      + cbn [N.eqb] in E |- *. change (9 =? 9)%N with true in *. cbv iota in *. set (c2 := S (col / tab_width) * tab_width) in *.
        assert (L : col < c2). { unfold c2. pose proof (Nat.mod_upper_bound col tab_width ltac:(lia)). pose proof (Nat.div_mod col tab_width ltac:(lia)). nia. }
        clearbody c2. destruct (IH c2 c F' E) as (R & L1 & _). rewrite R, <- repeat_app. split; [apply (f_equal (repeat 32%N)); lia|]. lia.
      + change (32 =? 9)%N with false in *. change (32 =? 32)%N with true in *. cbv iota in *. destruct (IH (S col) c F' E) as (R & L1 & _). rewrite R. split; [change (32%N :: repeat 32%N (c - S col)) with (repeat 32%N (S (c - S col))); apply (f_equal (repeat 32%N)); lia|]. lia.
  Qed.
  Lemma column_total l : forall col, Forall (fun c => c = 9%N \/ c = 32%N) l -> exists c, column tab_width l col = Some c.
  Proof. induction l as [|x l IH]; intros col F; cbn [column]; [eauto|]. inversion F as [|? ? [-> | ->] F']; subst; [apply IH; auto|]. change (32 =? 9)%N with false. change (32 =? 32)%N with true. cbv iota. apply IH. auto. Qed.
  Lemma column_spaces n : forall col, column tab_width (repeat 32%N n) col = Some (n + col).
  Proof. induction n as [|n IH]; intros col; [reflexivity|]. cbn [repeat column]. change (32 =? 9)%N with false. change (32 =? 32)%N with true. cbv iota. rewrite IH. f_equal. lia. Qed.
  Lemma expand_no_tab s : forall col, ~ In 9%N s -> expand tab_width s col = s.
  Proof. induction s as [|c s IH]; intros col N; [reflexivity|]. cbn [expand]. destruct (N.eqb_spec c 9) as [->|]; [destruct N; left; reflexivity|]. f_equal. apply IH. intros I. apply N. right. exact I. Qed.
  Lemma white_9 : white 9%N = true. Proof. destruct is_bytes; reflexivity. Qed.
  Definition tabby (toks : list (str * str)) : Prop := Forall (fun t => Forall (fun c => c = 9%N \/ c = 32%N) (fst t)) toks.
  Definition spacy (toks : list (str * str)) : Prop := Forall (fun t => Forall (fun c => c = 32%N) (fst t)) toks.
  Lemma repeat_spaces n : Forall (fun c => c = 32%N) (repeat 32%N n).
  Proof. apply Forall_forall. intros x I. now apply repeat_spec in I. Qed.
  Lemma spaces_blank l : Forall (fun c => c = 32%N) l -> blank_text l.
  Proof. intros F. eapply Forall_impl; [|exact F]. intros a ->. apply white_32. Qed.
  Lemma expand_toks toks : good toks -> tabby toks -> forall col, exists toks', good toks' /\ spacy toks' /\ expand tab_width (joined toks) col = joined toks' /\
    match toks, toks' with [], [] => True | (l, _) :: _, (l', _) :: _ => exists c, column tab_width l col = Some c /\ l' = repeat 32%N (c - col) /\ col <= c /\ (l <> [] -> l' <> []) | _, _ => False end.
  Proof.
    induction toks as [|[l w] toks IH]; intros G T col; [exists []; repeat split; constructor|].
    pose proof G as (A & B). inversion A as [|? ? (BL & WT) _]; subst. cbn [fst snd tl] in *. inversion T as [|? ? TL T']; subst. cbn [fst] in TL.
    destruct (column_total l col TL) as (c & EC). destruct (column_expand l col c TL EC) as (EE & LE & LT).
    destruct (IH (good_tail _ _ G) T' (c + length w)) as (toks' & (A' & B') & S' & E' & M').
    exists ((repeat 32%N (c - col), w) :: toks'). split; [|split; [|split]].
    - split; [constructor; auto; cbn; split; auto; apply spaces_blank, repeat_spaces|]. cbn [tl]. destruct toks as [|[l2 w2] toks], toks' as [|[l2' w2'] toks']; try contradiction; [constructor|].
      destruct M' as (c2 & _ & _ & _ & NE). inversion B as [|? ? N2 _]; subst. constructor; [apply NE; exact N2|exact B'].
    - constructor; [apply repeat_spaces|exact S'].
    - cbn [joined flat_map fst snd]. change (flat_map (fun t => fst t ++ snd t) toks) with (joined toks). change (flat_map (fun t => fst t ++ snd t) toks') with (joined toks'). rewrite <- !app_assoc. rewrite (expand_app tab_width l _ col c EC). rewrite EE. f_equal. rewrite (expand_word is_bytes tab_width allow_code (fun _ => TW) w _ c WT). now rewrite E'.
    - exists c. repeat split; auto. intros N. specialize (LT N). destruct (c - col) eqn:X; [lia|discriminate].
  Qed.
  Lemma joined_chars toks c : In c (joined toks) -> good toks -> tabby toks -> c = 9%N \/ c = 32%N \/ white c = false.
  Proof.
    induction toks as [|[l w] toks IH]; intros I G T; [destruct I|]. inversion T as [|? ? TL T']; subst. pose proof G as (A & _). inversion A as [|? ? (_ & WT) _]; subst. cbn [fst snd] in *.
    unfold joined in I. cbn [flat_map fst snd] in I. apply in_app_or in I. destruct I as [I|I]; [|apply IH; auto; apply (good_tail _ _ G)]. apply in_app_or in I. destruct I as [I|I].
    - rewrite Forall_forall in TL. destruct (TL _ I); auto.
    - destruct WT as (_ & WT). rewrite Forall_forall in WT. auto.
  Qed.
  Lemma joined_code_line l w toks : good ((l, w) :: toks) -> tabby ((l, w) :: toks) -> blank (joined ((l, w) :: toks)) = false /\ ~ In 10%N (joined ((l, w) :: toks)).
  Proof.
    intros G T. split.
    - pose proof G as (A & _). inversion A as [|? ? (_ & WT) _]; subst. cbn [snd] in WT. unfold isspace. apply andb_false_iff. right. cbn [joined flat_map fst snd]. rewrite !forallb_app. destruct WT as (NE & WT). destruct w as [|c w]; [congruence|]. inversion WT; subst. cbn. rewrite H1. cbn. rewrite andb_false_r. reflexivity.
    - intros I. destruct (joined_chars _ _ I G T) as [E|[E|E]]; [discriminate|discriminate|]. rewrite white_10 in E. discriminate.
  Qed.
  Lemma spacy_no_tab toks : good toks -> spacy toks -> ~ In 9%N (joined toks).
  Proof.
    induction toks as [|[a b] l IH]; intros G S I; [destruct I|]. unfold joined in I. cbn [flat_map fst snd] in I.
    inversion S as [|? ? Sa Sl]; subst. pose proof G as (A & _). inversion A as [|? ? (_ & (_ & WT)) _]; subst. cbn [fst snd] in *.
    apply in_app_or in I. destruct I as [I|I]; [|apply IH; auto; apply (good_tail _ _ G)]. apply in_app_or in I. destruct I as [I|I]; [rewrite Forall_forall in Sa; specialize (Sa _ I); discriminate|rewrite Forall_forall in WT; specialize (WT _ I); rewrite white_9 in WT; discriminate].
  Qed.
  Lemma class_code_line line t : is_class line (Code t) -> code_line t.
  Proof.
    intros C. inversion C as [| |? l w toks TK IN TB]; subst. cbv zeta. pose proof (tokens_good _ _ TK) as G. destruct conv eqn:CV.
    - destruct (expand_toks _ G TB 0) as (toks' & G' & S' & E' & M'). destruct toks' as [|[l' w'] toks']; [contradiction|]. destruct M' as (c & EC & -> & _ & _). rewrite Nat.sub_0_r in *.
      assert (TB' : tabby ((repeat 32%N c, w') :: toks')). { eapply Forall_impl; [|exact S']. intros a Fa. eapply Forall_impl; [|exact Fa]. auto. }
      destruct (joined_code_line _ _ _ G' TB') as (J1 & J2). change ((l ++ w) ++ joined toks) with (joined ((l, w) :: toks)). rewrite E'. split; [|auto].
      assert (NT : expand tab_width (joined ((repeat 32%N c, w') :: toks')) 0 = joined ((repeat 32%N c, w') :: toks')).
      { apply expand_no_tab. now apply spacy_no_tab. }
      assert (IN' : indented tab_width allow_code code_indent (repeat 32%N c)).
      { destruct IN as (AC & col & E2 & L2). split; auto. exists c. split; [rewrite column_spaces; f_equal; lia|]. rewrite EC in E2. injection E2 as <-. exact L2. }
      refine (eq_ind _ (fun z => is_class _ (Code z)) (IsCode is_bytes tab_width allow_code code_indent conv _ (repeat 32%N c) w' toks' (good_tokens _ G') IN' TB') _ _).
      cbv zeta. transitivity (expand tab_width (joined ((repeat 32%N c, w') :: toks')) 0); [|exact NT]. rewrite CV. reflexivity.
    - destruct (joined_code_line _ _ _ G TB) as (J1 & J2). change ((l ++ w) ++ joined toks) with (joined ((l, w) :: toks)). split; [|auto].
      refine (eq_ind _ (fun z => is_class _ (Code z)) (IsCode is_bytes tab_width allow_code code_indent conv _ l w toks (good_tokens _ G) IN TB) _ _).
      cbv zeta. rewrite CV. reflexivity.
  Qed.
  Lemma class_text line ws : is_class line (Text ws) -> (allow_code = true -> 0 < code_indent) /\ ws <> [] /\ Forall word_text ws.
  Proof.
    intros C. inversion C as [|? l w toks TK NI|]; subst. split; [|split; [discriminate|]].
    - intros A. destruct (NI A) as (col & _ & L). lia.
    - destruct (tokens_good _ _ TK) as (A & _). apply Forall_forall. intros x I. change (In x (map snd ((l, w) :: toks))) in I. apply in_map_iff in I. destruct I as (t & <- & I). rewrite Forall_forall in A. now apply A.
  Qed.
  Lemma group_ok lines classes : Forall2 is_class lines classes -> blocks_ok (group classes).
  Proof.
    induction 1 as [|line cl lines classes C F IH]; [constructor|]. cbn [group]. destruct cl as [|ws|t]; [exact IH| |].
    - destruct (class_text _ _ C) as (CI & NE & FW). destruct (group classes) as [|[ws'|f m] bs] eqn:G; try (constructor; auto).
      inversion IH; subst. destruct (starts_with_text classes); [|repeat constructor; auto]. constructor; auto; [destruct ws; [congruence|discriminate]|apply Forall_app; auto].
    - apply class_code_line in C. destruct (group classes) as [|[ws'|f m] bs] eqn:G; try (constructor; auto; discriminate).
      inversion IH; subst. constructor; auto. constructor; auto. cbn. split; [lia|auto].
  Qed.
  Theorem reflow lines classes : Forall2 is_class lines classes -> exists out lines' classes', laid (all_words (group classes)) out lines' classes' (group classes).
  Proof. intros F. apply blocks_laid, (group_ok lines classes F). Qed.

  (** a newline at the end *)
  Lemma group_empty_blanks l : group l = [] -> forall r, blanks (l ++ r) = length l + blanks r.
  Proof.
    induction l as [|[|ws|t] l IH]; intros E r; [reflexivity| | |]; cbn [group] in E.
    - cbn. now rewrite IH.
    - destruct (group l) as [|[] ?]; try discriminate. destruct (starts_with_text l); discriminate.
    - destruct (group l) as [|[] ?]; discriminate.
  Qed.
  Lemma blanks_app l r : group l <> [] -> blanks (l ++ r) = blanks l.
  Proof. induction l as [|[|ws|t] l IH]; intros E; [now destruct E| |reflexivity|reflexivity]. cbn. rewrite IH; auto. Qed.
  Lemma group_blank_end l : group (l ++ [Blank]) = group l.
  Proof.
    induction l as [|[|ws|t] l IH]; [reflexivity|exact IH| |]; cbn [app group]; rewrite IH.
    - replace (starts_with_text (l ++ [Blank])) with (starts_with_text l) by (destruct l; reflexivity). reflexivity.
    - destruct (group l) as [|[] ?] eqn:E; auto. rewrite blanks_app; [reflexivity|congruence].
  Qed.
End Reflow.

Lemma Forall2_imp {A B} (P Q : A -> B -> Prop) a b : (forall x y, P x y -> Q x y) -> Forall2 P a b -> Forall2 Q a b.
Proof. intros H F. induction F; constructor; auto. Qed.
Lemma class_any is_bytes tw ci conv tw' ci' conv' l cl : is_class is_bytes tw false ci conv l cl -> is_class is_bytes tw' false ci' conv' l cl.
Proof. intros C. inversion C as [|? ? ? ? T N|? ? ? ? T (I & _)]; subst; [constructor; auto|constructor; auto; discriminate|discriminate]. Qed.

(** ** C127 *)
(** Text is split into words, and the words are wrapped, with any margin.  What comes out, split again, gives the same words: nothing is lost or
    joined, and paragraphs stay paragraphs.  So formatting twice is the same as formatting once, and text can be reformatted to another width. *)
Theorem C127_reflow is_bytes tab_width code_indent conv s ws margin two_spaces :
  split_text_with_code is_bytes tab_width false code_indent conv s = Ok ws ->
  exists out, wrap_words is_bytes ws margin two_spaces = Ok out /\
    forall tab_width' code_indent' conv', split_text_with_code is_bytes tab_width' false code_indent' conv' out = Ok ws.
Proof.
  intros H. destruct (C77_paragraphs is_bytes tab_width code_indent conv s) as ((lines & classes & L & F) & P). destruct (P _ _ L F) as (_ & E). rewrite H in E. apply ok_inj in E. subst ws.
  assert (F1 : Forall2 (is_class is_bytes 1 false code_indent conv) lines classes) by (eapply Forall2_imp; [|exact F]; intros; eapply class_any; eassumption).
  destruct (reflow is_bytes 1 false code_indent conv margin Nat.lt_0_1 lines classes F1) as (out & lines' & classes' & [W LO FC G]).
  exists out. split.
  - apply C45_wrap. split; [|exact W]. pose proof (group_words is_bytes tab_width false code_indent conv lines classes F) as NW. unfold all_words. destruct (group classes) as [|b bs]; [discriminate|]. inversion NW; subst. destruct (block_words b); [congruence|discriminate].
  - intros tw' ci' conv'. assert (F' : Forall2 (is_class is_bytes tw' false ci' conv') lines' classes') by (eapply Forall2_imp; [|exact FC]; intros; eapply class_any; eassumption).
    destruct (C77_paragraphs is_bytes tw' ci' conv' out) as (_ & P'). destruct (P' _ _ LO F') as (_ & E'). rewrite E', G. reflexivity.
Qed.
(** With code the same, for a text with at most one code block (see C78), with a newline after what wrap_words returns; the newline is not needed if the text
    ends with a paragraph. *)
Theorem C127_reflow_code is_bytes tab_width code_indent conv s lines classes margin two_spaces : 0 < tab_width ->
  lines_of s lines -> Forall2 (is_class is_bytes tab_width true code_indent conv) lines classes ->
  (forall t, last classes Blank <> Code t) -> length (filter is_code_block (group classes)) <= 1 ->
  exists ws out, split_text_with_code is_bytes tab_width true code_indent conv s = Ok ws /\ wrap_words is_bytes ws margin two_spaces = Ok out /\
    split_text_with_code is_bytes tab_width true code_indent conv (out ++ [10%N]) = Ok ws /\
    ((exists bs p, group classes = bs ++ [Paragraph p]) -> split_text_with_code is_bytes tab_width true code_indent conv out = Ok ws).
Proof.
  intros TW L F LC CB. exists (all_words (group classes)).
  destruct (C78_blocks_partial is_bytes tab_width code_indent conv s TW) as (_ & P). pose proof (P _ _ L F LC CB) as E.
  destruct (reflow is_bytes tab_width true code_indent conv margin TW lines classes F) as (out & lines' & classes' & [W LO FC G]).
  exists out. split; [exact E|]. split; [|split].
  - apply C45_wrap. split; [|exact W]. pose proof (group_words is_bytes tab_width true code_indent conv lines classes F) as NW. unfold all_words. destruct (group classes) as [|b bs]; [discriminate|]. inversion NW; subst. destruct (block_words b); [congruence|discriminate].
  - destruct (C78_blocks_partial is_bytes tab_width code_indent conv (out ++ [10%N]) TW) as (_ & P'). rewrite (P' (lines' ++ [[]]) (classes' ++ [Blank])).
    + rewrite group_blank_end, G. reflexivity.
    + destruct LO as (NE & J & N). split; [destruct lines'; discriminate|]. split; [rewrite join_app by (auto; discriminate); rewrite J; reflexivity|]. apply Forall_app. split; auto.
    + apply Forall2_app; auto. constructor; [|constructor]. apply class_empty.
    + intros t. rewrite last_last. discriminate.
    + rewrite group_blank_end, G. exact CB.
  - intros (bs & p & EG). destruct (C78_blocks_partial is_bytes tab_width code_indent conv out TW) as (_ & P'). rewrite (P' lines' classes'); auto; [now rewrite G| |now rewrite G].
    intros t LT. assert (exists c0, classes' = c0 ++ [Code t]) as (c0 & ->).
    { destruct classes' as [|x c0] using rev_ind; [discriminate|]. rewrite last_last in LT. subst x. eauto. }
    clear - G EG. rewrite EG in G. clear EG. revert bs p G. induction c0 as [|[|ws|t0] c0 IH]; intros bs p G.
    + cbn in G. destruct bs as [|b [|b2 bs]]; discriminate.
    + exact (IH bs p G).
    + cbn [app group] in G. destruct (group (c0 ++ [Code t])) as [|[ws'|f m] bs'] eqn:GE.
      * destruct bs as [|b [|b2 bs]]; try discriminate. clear -GE. exfalso. induction c0 as [|[|ws|t0] c0 IH]; cbn [app group] in GE; [discriminate|auto| |].
        -- destruct (group (c0 ++ [Code t])) as [|[] ?]; try discriminate. destruct (starts_with_text (c0 ++ [Code t])); discriminate.
        -- destruct (group (c0 ++ [Code t])) as [|[] ?]; discriminate.
      * destruct (starts_with_text (c0 ++ [Code t])).
        -- destruct bs as [|b bs].
           ++ injection G as <- ->. apply (IH [] ws'). reflexivity.
           ++ injection G as <- ->. apply (IH (Paragraph ws' :: bs) p). reflexivity.
        -- destruct bs as [|b bs]; [discriminate|]. injection G as <- G. apply (IH bs p). exact G.
      * destruct bs as [|b bs]; [discriminate|]. injection G as <- G. apply (IH bs p). exact G.
    + cbn [app group] in G. destruct (group (c0 ++ [Code t])) as [|[ws'|f m] bs'] eqn:GE.
      * destruct bs as [|b [|b2 bs]]; discriminate.
      * destruct bs as [|b bs]; [discriminate|]. injection G as <- G. apply (IH bs p). exact G.
      * destruct bs as [|b bs]; [discriminate|]. injection G as <- ->. apply (IH (CodeBlock f m :: bs) p). reflexivity.
Qed.
(** Without the newline the last line of code is lost, as in C76 *)
Theorem C127_code_at_end_refuted : exists ws out ws', split_text_with_code false 8 true 4 true (u "a" ++ [10; 10]%N ++ u "    b" ++ [10]%N) = Ok ws /\
  wrap_words false ws 79 true = Ok out /\ split_text_with_code false 8 true 4 true out = Ok ws' /\ ws = [u "a"; [10; 10]%N; u "    b"] /\ ws' = [u "a"; [10; 10]%N].
Proof. eexists _, _, _. split; [vm_compute; reflexivity|]. split; [vm_compute; reflexivity|]. split; [vm_compute; reflexivity|]. split; vm_compute; reflexivity. Qed.
Print Assumptions C127_reflow.
Print Assumptions C127_reflow_code.
Print Assumptions C127_code_at_end_refuted.

(** Two paragraphs and code between them, at margin 7 *)
Example C127_example : let s := u "The cat sat." ++ [10]%N ++ u "  On the mat." ++ [10; 10]%N ++ u "      x = 1" ++ [10; 10]%N ++ u "      y" ++ [10; 10; 10]%N ++ u "So." in
  exists ws, split_text_with_code false 8 true 4 true s = Ok ws /\
    wrap_words false ws 7 true = Ok (u "The cat" ++ [10]%N ++ u "sat." ++ [10]%N ++ u "On the" ++ [10]%N ++ u "mat." ++ [10; 10]%N ++ u "      x = 1" ++ [10; 10]%N ++ u "      y" ++ [10; 10]%N ++ u "So.") /\
    split_text_with_code false 8 true 4 true (u "The cat" ++ [10]%N ++ u "sat." ++ [10]%N ++ u "On the" ++ [10]%N ++ u "mat." ++ [10; 10]%N ++ u "      x = 1" ++ [10; 10]%N ++ u "      y" ++ [10; 10]%N ++ u "So.") = Ok ws.
Proof. eexists. split; [vm_compute; reflexivity|]. split; vm_compute; reflexivity. Qed.
