(** The properties C45 (wrap_words), C47 (split_title_case), C49 (gently_title). *)
From Verif Require Import PyBaseProof SplitModel DelimProof DelimProps LinesModel LinesSpec LinesProof WordsModel WordsSpec WordsProof WordsProof2 WordsProof3.

(** * C45 wrap_words *)
(** The output is the unique one in which the words fill the lines greedily, sentence ends are
    followed by two spaces, and words of white space are copied. *)
Theorem C45_wrap : forall is_bytes words margin two_spaces out,
  wrap_words is_bytes words margin two_spaces = Ok out <-> words <> [] /\ wrapped true margin (isspace is_bytes) words out.
Proof. exact wrap_words_wrapped. Qed.
Print Assumptions C45_wrap.
Theorem C45_errors : forall is_bytes words margin two_spaces, wrap_words is_bytes words margin two_spaces = Err ValueError <-> words = [].
Proof. intros is_bytes words margin two. destruct words; split; intros E; auto; discriminate. Qed.
Print Assumptions C45_errors.
(** The words are in the output, in order and unmodified, with only blanks added. *)
Theorem C45_words_preserved : forall is_bytes words margin two_spaces out, wrap_words is_bytes words margin two_spaces = Ok out ->
  exists gaps, length gaps = length words /\ Forall (fun g => In g [u ""; u " "; u "  "; [10%N]]) gaps /\
    out = concat (map (fun p => fst p ++ snd p) (combine gaps words)).
Proof.
  intros is_bytes words margin two out E. destruct words as [|w0 words0]; [discriminate|]. cbn [wrap_words] in E. apply Ok_inj in E. subst out. remember (w0 :: words0) as words eqn:X. clear X.
  generalize 0%Z (@nil chr). induction words as [|w words IH]; intros col last; [exists []; auto|]. cbn [wrap_loop].
  destruct (isspace is_bytes w).
  { destruct (IH 0%Z w) as (gaps & L & F & E). exists ([] :: gaps). split; [cbn; congruence|]. split; [constructor; cbn; auto|]. cbn [concat combine map fst snd app]. now rewrite E. }
  set (sl := if negb (is_nil (spaces 2)) && existsb (fun p => ends_with p last) sentence_ending_punctuation then (spaces 2, 2%Z) else (spaces 1, 1%Z)). assert (G : In (fst sl) [u ""; u " "; u "  "; [10%N]]) by (subst sl; destruct (negb _ && _); cbn; auto). destruct sl as [space len]. cbn [fst] in G.
  match goal with |- context [let '(pre, col0) := ?x in pre ++ _] => set (pc := x) end.
  assert (P : exists g, In g [u ""; u " "; u "  "; [10%N]] /\ concat (fst pc) = g).
  { subst pc. destruct (margin <? _)%Z, (col =? 0)%Z; cbn [fst concat]; rewrite ?app_nil_r; eexists; (split; [|reflexivity]); auto; cbn; auto. }
  destruct pc as [pre col']. cbn [fst] in P. destruct P as (g & Ig & Eg). destruct (IH (col' + Z.of_nat (length w))%Z w) as (gaps & L & F & E).
  exists (g :: gaps). split; [cbn; congruence|]. split; [constructor; auto|]. cbn [combine map concat fst snd]. rewrite concat_app, Eg. cbn [concat]. rewrite <- app_assoc. exact (f_equal (fun x => g ++ w ++ x) E).
Qed.
Print Assumptions C45_words_preserved.
(** The margin holds for words without line breaks and line break words. *)
Theorem C45_margin_partial : forall is_bytes words margin two_spaces out,
  (forall w, In w words -> ~ In 10%N w \/ (w <> [] /\ forall c, In c w -> c = 10%N)) ->
  (forall w, In w words -> isspace is_bytes w = true -> In 10%N w) ->
  wrap_words is_bytes words margin two_spaces = Ok out ->
  forall line, In line (split1 (fun c => (c =? 10)%N) out) -> (Z.of_nat (length line) <= margin)%Z \/ line = [] \/ In line words.
Proof.
  intros is_bytes words margin two out W S E line I. apply wrap_words_wrapped in E. destruct E as [_ E]. refine (wrapped_lines margin true _ _ _ E _ line I).
  intros w Iw. destruct (isspace is_bytes w) eqn:Sp.
  - destruct (W w Iw) as [N|[N H]]; [exfalso; apply N; auto|]. split; auto. apply forallb_forall. intros c Ic. rewrite (H c Ic). reflexivity.
  - destruct (W w Iw) as [N|[N H]].
    + destruct (existsb nl w) eqn:X; auto. apply existsb_exists in X. destruct X as (c & Ic & Ec). apply N.eqb_eq in Ec. subst. contradiction.
    + exfalso. enough (isspace is_bytes w = true) as Y by (rewrite Sp in Y; discriminate Y). unfold isspace. destruct w as [|c0 w]; [now destruct N|]. cbn [is_nil negb andb]. apply forallb_forall. intros c' Ic. rewrite (H c' Ic). destruct is_bytes; reflexivity.
Qed.
Print Assumptions C45_margin_partial.
(** With other words of white space, a line may be too long although no word is. *)
Theorem C45_margin_refuted : exists words out, wrap_words false words 5 true = Ok out /\ Forall (fun w => length w <= 3) words /\ out = u "aa bbb" /\ 5 < length out.
Proof. exists [u "aa"; u " "; u "bbb"]. eexists. split; [reflexivity|]. split; [repeat constructor|]. split; [reflexivity|]. vm_compute. repeat constructor. Qed.
Print Assumptions C45_margin_refuted.
(** two_spaces=False has no effect. *)
Theorem C45_two_spaces_refuted :
  (forall is_bytes words margin, wrap_words is_bytes words margin false = wrap_words is_bytes words margin true) /\
  wrap_words false [u "a."; u "b"] 79 false = Ok (u "a.  b").
Proof. split; [intros is_bytes [|] margin; reflexivity|reflexivity]. Qed.
Print Assumptions C45_two_spaces_refuted.
Example C45_witness : wrap_words false [u "The"; u "end."; u "It"; u "is"; [10; 10]%N; u "incomprehensible"; u "yes"] 11 true
  = Ok (u "The end." ++ [10%N] ++ u "It is" ++ [10; 10]%N ++ u "incomprehensible" ++ [10%N] ++ u "yes").
Proof. reflexivity. Qed.

(** * C47 split_title_case *)
Theorem C47_title_case : forall isupper islower split_allcaps s, (forall c, isupper c = true -> islower c = true -> False) -> s <> [] ->
  let words := split_title_case isupper islower s split_allcaps in
  concat words = s /\ Forall (fun w : str => w <> []) words /\
  forall i, 0 < i < length s ->
    ((exists a b, words = a ++ b /\ concat a = firstn i s /\ b <> []) <-> word_boundary isupper islower split_allcaps (firstn i s) (skipn i s)).
Proof. intros isupper islower allcaps s X N. now apply split_title_spec. Qed.
Print Assumptions C47_title_case.
Theorem C47_empty : forall isupper islower split_allcaps, split_title_case isupper islower [] split_allcaps = [[]].
Proof. reflexivity. Qed.
Print Assumptions C47_empty.
Definition ascii_upper_letter (c : chr) : bool := between 65 90 c.
Definition ascii_lower_letter (c : chr) : bool := between 97 122 c.
Example C47_witness : (forall c, ascii_upper_letter c = true -> ascii_lower_letter c = true -> False) /\
  split_title_case ascii_upper_letter ascii_lower_letter (u "WhenIWasATeapot") true = [u "When"; u "I"; u "Was"; u "A"; u "Teapot"] /\
  split_title_case ascii_upper_letter ascii_lower_letter (u "WhenIWasATeapot") false = [u "When"; u "IWas"; u "ATeapot"].
Proof.
  split; [|split; reflexivity]. intros c A B. unfold ascii_upper_letter, ascii_lower_letter, between in *. rewrite !andb_true_iff, !N.leb_le in *. lia.
Qed.

(** * C49 gently_title *)
Definition ascii_upper (c : chr) : str := [if between 97 122 c then (c - 32)%N else c].
(** Only the case of characters changes. *)
Theorem C49_only_case : forall is_bytes upper s apostrophes double_quotes out, gently_title is_bytes upper s apostrophes double_quotes = Ok out ->
  exists outs, out = concat outs /\ Forall2 (fun c o => o = [c] \/ o = upper c) s outs.
Proof.
  intros is_bytes upper s aps dqs out E. unfold gently_title in E. destruct (quote_set _ aps) as [ap|]; [|discriminate]. destruct (quote_set _ dqs) as [dq|]; [|discriminate].
  apply Ok_inj in E. subst out. apply gentle_chars.
Qed.
Print Assumptions C49_only_case.
Lemma quote_set_ok default arg f : quote_set default arg = Ok f -> f = fun c => str_in [c] (match arg with Some l => l | None => default end).
Proof. destruct arg as [l|]; cbn; [destruct (existsb is_nil l); [discriminate|]; destruct (is_nil l); [discriminate|]|]; intros E; apply Ok_inj in E; auto. Qed.
(** The documented rules, for texts in which none of: quote marks beginning a word, a single letter
    O or D, that letter and an apostrophe, is a whole word. *)
Theorem C49_rules_partial : forall is_bytes upper s apostrophes double_quotes out,
  let apostrophe c := str_in [c] (match apostrophes with Some l => l | None => default_apostrophes is_bytes end) in
  let quote c := apostrophe c || str_in [c] (match double_quotes with Some l => l | None => default_double_quotes is_bytes end) in
  let space c := white is_bytes c || (c =? 40)%N in
  let d_or_o c := contains (upper c) (u "DO") in
  (forall before w c after, s = before ++ c :: after -> word_so_far space before w ->
     only_quotes quote w \/ name_letter quote d_or_o w \/ name_prefix quote apostrophe d_or_o w -> space c = false) ->
  gently_title is_bytes upper s apostrophes double_quotes = Ok out ->
  exists outs, out = concat outs /\ length outs = length s /\
    forall i c, nth_error s i = Some c ->
      (capital space quote apostrophe d_or_o (firstn i s) c -> nth_error outs i = Some (upper c)) /\
      (~ capital space quote apostrophe d_or_o (firstn i s) c -> nth_error outs i = Some [c]).
Proof.
  intros is_bytes upper s aps dqs out ap qu space dor T E. unfold gently_title in E.
  destruct (quote_set _ aps) as [ap'|] eqn:A; [|discriminate]. destruct (quote_set _ dqs) as [dq'|] eqn:D; [|discriminate].
  apply Ok_inj in E. subst out. apply quote_set_ok in A, D. subst ap' dq'.
  refine (gentle_capital is_bytes upper _ _ s [] [] _ _).
  - exists []. auto.
  - intros b v c a Eb _. apply (T b v c a). exact Eb.
Qed.
Print Assumptions C49_rules_partial.
(** What it does for every text: the rules hold of [long_word]s (WordsSpec.v), which a space does not end right after a letter O or D that is a
    whole word, and so on. *)
Theorem C49_rules_exact : forall is_bytes upper s apostrophes double_quotes out,
  let apostrophe c := str_in [c] (match apostrophes with Some l => l | None => default_apostrophes is_bytes end) in
  let quote c := apostrophe c || str_in [c] (match double_quotes with Some l => l | None => default_double_quotes is_bytes end) in
  let space c := white is_bytes c || (c =? 40)%N in
  let d_or_o c := contains (upper c) (u "DO") in
  gently_title is_bytes upper s apostrophes double_quotes = Ok out ->
  exists outs, out = concat outs /\ length outs = length s /\
    forall i c, nth_error s i = Some c ->
      (really_capital space quote apostrophe d_or_o (firstn i s) c -> nth_error outs i = Some (upper c)) /\
      (~ really_capital space quote apostrophe d_or_o (firstn i s) c -> nth_error outs i = Some [c]).
Proof.
  intros is_bytes upper s aps dqs out ap qu space dor E. unfold gently_title in E.
  destruct (quote_set _ aps) as [ap'|] eqn:A; [|discriminate]. destruct (quote_set _ dqs) as [dq'|] eqn:D; [|discriminate].
  apply Ok_inj in E. subst out. apply quote_set_ok in A, D. subst ap' dq'.
  exact (gentle_exact is_bytes upper _ _ s [] [] (Begin _ _ _ _)).
Qed.
Print Assumptions C49_rules_exact.
(** Each position has exactly one [long_word]: [really_capital] is decided by the text. *)
Theorem C49_rules_exact_total : forall is_bytes upper apostrophe double_quote before,
  exists w, long_word (fun c => white is_bytes c || (c =? 40)%N) (fun c => apostrophe c || double_quote c) apostrophe (fun c => contains (upper c) (u "DO")) before w /\
    forall w', long_word (fun c => white is_bytes c || (c =? 40)%N) (fun c => apostrophe c || double_quote c) apostrophe (fun c => contains (upper c) (u "DO")) before w' -> w' = w.
Proof.
  intros is_bytes upper ap dq before. assert (T : exists w, long_word (sp is_bytes) (WordsProof3.qu ap dq) ap (dor upper) before w).
  { induction before as [|c before (w & IH)] using rev_ind; [exists []; constructor|].
    assert (U : unfinished (WordsProof3.qu ap dq) ap (dor upper) w \/ ~ unfinished (WordsProof3.qu ap dq) ap (dor upper) w) by (rewrite unfinished_st; destruct (st upper ap dq w); auto).
    destruct U as [U|U]; [exists (w ++ [c]); constructor; auto|]. destruct (sp is_bytes c) eqn:S; [exists []; now apply (Gap _ _ _ _ before w)|exists (w ++ [c]); constructor; auto]. }
  destruct T as (w & T). exists w. split; [exact T|]. intros w' T'. exact (long_word_unique is_bytes upper ap dq before _ _ T' T).
Qed.
Print Assumptions C49_rules_exact_total.
(** The letter after a whole word d is not upper-cased, the one after the next word is. *)
Example C49_exact_witness : gently_title false ascii_upper (u "vitamin d deficiency here") None None = Ok (u "Vitamin D deficiency Here").
Proof. vm_compute. reflexivity. Qed.
(** "Uppercase the first character of every word in s" is false after a one-letter word d or o. *)
Theorem C49_rules_refuted : exists s out i c,
  let apostrophe c := str_in [c] (default_apostrophes false) in
  capital (fun c => white false c || (c =? 40)%N) (fun c => apostrophe c || str_in [c] (default_double_quotes false)) apostrophe
    (fun c => contains (ascii_upper c) (u "DO")) (firstn i s) c /\ nth_error s i = Some c /\
  gently_title false ascii_upper s None None = Ok out /\ nth_error out i = Some c /\ ascii_upper c <> [c] /\
  s = u "vitamin d deficiency" /\ out = u "Vitamin D deficiency" /\
  gently_title false ascii_upper (u "vitamin c deficiency") None None = Ok (u "Vitamin C Deficiency").
Proof.
  exists (u "vitamin d deficiency"), (u "Vitamin D deficiency"), 10, (c1 "d"). cbn zeta. split; [|repeat split; try (vm_compute; reflexivity); discriminate].
  split; [reflexivity|]. exists []. split; [|auto]. exists (u "vitamin d "). split; [reflexivity|]. split; [|reflexivity]. right. exists (u "vitamin d"), 32%N. split; reflexivity.
Qed.
Print Assumptions C49_rules_refuted.
(** Titling twice is the same as once, where c.upper() is one character of the same kind. *)
Theorem C49_idempotent : forall is_bytes upper s apostrophes double_quotes out,
  let apostrophe c := str_in [c] (match apostrophes with Some l => l | None => default_apostrophes is_bytes end) in
  let double_quote c := str_in [c] (match double_quotes with Some l => l | None => default_double_quotes is_bytes end) in
  let space c := white is_bytes c || (c =? 40)%N in
  (forall c, In c s -> exists c', upper c = [c'] /\ upper c' = [c'] /\ space c' = space c /\ apostrophe c' = apostrophe c /\ double_quote c' = double_quote c) ->
  gently_title is_bytes upper s apostrophes double_quotes = Ok out -> gently_title is_bytes upper out apostrophes double_quotes = Ok out.
Proof.
  intros is_bytes upper s aps dqs out ap dq space H E. unfold gently_title in *.
  destruct (quote_set _ aps) as [ap'|] eqn:A; [|discriminate]. destruct (quote_set _ dqs) as [dq'|] eqn:D; [|discriminate].
  apply Ok_inj in E. subst out. apply quote_set_ok in A, D. subst ap' dq'. f_equal. now apply gentle_idempotent.
Qed.
Print Assumptions C49_idempotent.
(** The hypothesis holds of ASCII text with the default quote marks. *)
Lemma C49_ascii : forall is_bytes c, exists c', ascii_upper c = [c'] /\ ascii_upper c' = [c'] /\
  (white is_bytes c' || (c' =? 40)%N) = (white is_bytes c || (c =? 40)%N) /\ str_in [c'] (default_apostrophes is_bytes) = str_in [c] (default_apostrophes is_bytes) /\
  str_in [c'] (default_double_quotes is_bytes) = str_in [c] (default_double_quotes is_bytes).
Proof.
  intros is_bytes c. unfold ascii_upper. destruct (between 97 122 c) eqn:B; [|exists c; rewrite B; auto]. exists (c - 32)%N. split; auto.
  assert (R : forall d : N, (d < 256)%N -> forall P : N -> bool, forallb P (map N.of_nat (seq 0 256)) = true -> P d = true).
  { intros d L P F. rewrite forallb_forall in F. apply F. apply in_map_iff. exists (N.to_nat d). split; [apply N2Nat.id|]. apply in_seq. lia. }
  assert (L : (c < 256)%N) by (unfold between in B; rewrite andb_true_iff, !N.leb_le in B; lia).
  pose proof (R c L (fun c => negb (between 97 122 c) || (negb (between 97 122 (c - 32)) && Bool.eqb (white is_bytes (c - 32) || (c - 32 =? 40)%N) (white is_bytes c || (c =? 40)%N) &&
    Bool.eqb (str_in [c - 32]%N (default_apostrophes is_bytes)) (str_in [c] (default_apostrophes is_bytes)) && Bool.eqb (str_in [c - 32]%N (default_double_quotes is_bytes)) (str_in [c] (default_double_quotes is_bytes)))))%N as X.
  cbn beta in X. rewrite B in X. cbn [negb orb] in X. rewrite !andb_true_iff, !negb_true_iff, !Bool.eqb_true_iff in X.
  destruct X as (((X1 & X2) & X3) & X4); [destruct is_bytes; vm_compute; reflexivity|]. rewrite X1. auto.
Qed.
Print Assumptions C49_ascii.
Theorem C49_errors : forall is_bytes upper s apostrophes double_quotes,
  gently_title is_bytes upper s apostrophes double_quotes = Err ValueError <-> apostrophes = Some [] \/ double_quotes = Some [] \/
    (exists l, (apostrophes = Some l \/ double_quotes = Some l) /\ In [] l).
Proof.
  intros is_bytes upper s aps dqs. unfold gently_title.
  assert (Q : forall default arg, (exists f, quote_set default arg = Ok f /\ arg <> Some [] /\ forall l, arg = Some l -> ~ In [] l) \/ (quote_set default arg = Err ValueError /\ (arg = Some [] \/ exists l, arg = Some l /\ In [] l))).
  { intros default [l|]; cbn; [|left; eexists; split; [reflexivity|]; split; [discriminate|discriminate]]. destruct (existsb is_nil l) eqn:X.
    - right. split; auto. right. exists l. split; auto. apply existsb_exists in X. destruct X as (x & I & N). apply is_nil_iff in N. now subst.
    - destruct l as [|x l]; [right; auto|]. left. eexists. split; [reflexivity|]. split; [discriminate|]. intros l' E I. injection E as <-.
      assert (existsb is_nil (x :: l) = true); [|congruence]. apply existsb_exists. exists []. auto. }
  destruct (Q (default_apostrophes is_bytes) aps) as [(f & -> & N & M)|[-> H]].
  - destruct (Q (default_double_quotes is_bytes) dqs) as [(g & -> & N' & M')|[-> H]].
    + split; [discriminate|]. intros [E|[E|(l & [E|E] & I)]]; [congruence|congruence|destruct (M l E I)|destruct (M' l E I)].
    + split; auto. intros _. destruct H as [H|(l & H & I)]; eauto 6.
  - split; auto. intros _. destruct H as [H|(l & H & I)]; eauto 6.
Qed.
Print Assumptions C49_errors.
Example C49_witness : gently_title true ascii_upper (u "peter o'toole (said 'no') and ""i don't""") None None = Ok (u "Peter O'Toole (Said 'No') And ""I Don't""").
Proof. vm_compute. reflexivity. Qed.
(** Without arguments, gently_title uses the marks that big.text documents: for str
    apostrophes = ' ‘ ’ ‚ ‛ and double_quotes = " “ ” „ ‟ « » ‹ ›, for bytes ' and ". *)
Theorem C49_default_marks : forall upper s,
  gently_title true upper s None None = gently_title true upper s (Some [[39%N]]) (Some [[34%N]]) /\
  gently_title false upper s None None =
    gently_title false upper s (Some (map (fun c => [c]) [39; 8216; 8217; 8218; 8219]%N)) (Some (map (fun c => [c]) [34; 8220; 8221; 8222; 8223; 171; 187; 8249; 8250]%N)).
Proof. intros. split; reflexivity. Qed.
Print Assumptions C49_default_marks.
