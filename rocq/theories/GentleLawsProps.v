(** C148: titling a text word by word. *)
From Verif Require Import PyBase PyBaseProof PyStr SplitModel DelimProof DelimProps WordsModel WordsSpec WordsProof3 WordsProps.
Local Open Scope nat_scope.

Section Laws.
  Context (is_bytes : bool) (upper : chr -> str) (ap dq : chr -> bool).
  Notation step := (gentle_step is_bytes upper ap dq).
  Notation loop := (gentle_loop is_bytes upper ap dq).
  Notation space := (sp is_bytes).
  Notation quote := (qu ap dq).
  Notation d_or_o := (dor upper).
  Lemma loop_long a : forall before w b, long_word space quote ap d_or_o before w ->
    exists w', long_word space quote ap d_or_o (before ++ a) w' /\ loop (st upper ap dq w) (a ++ b) = loop (st upper ap dq w) a ++ loop (st upper ap dq w') b.
  Proof.
    induction a as [|c a IH]; intros before w b L; [exists w; rewrite app_nil_r; auto|].
    assert (K : exists w1 o, long_word space quote ap d_or_o (before ++ [c]) w1 /\ step (st upper ap dq w) c = (st upper ap dq w1, o)).
    { assert (U : unfinished quote ap d_or_o w \/ ~ unfinished quote ap d_or_o w) by (rewrite unfinished_st; destruct (st upper ap dq w); auto).
      destruct (space c) eqn:S.
      - destruct U as [U|U].
        + eexists; eexists; split; [apply (Letter _ _ _ _ _ w c L); auto|apply st_snoc_any; auto].
        + exists [], [c]. split; [apply (Gap _ _ _ _ _ w c L); auto|]. rewrite unfinished_st in U.
          destruct (st upper ap dq w); try (destruct U; exact Logic.I); unfold gentle_step; fold (sp is_bytes c); rewrite S; reflexivity.
      - eexists; eexists; split; [apply (Letter _ _ _ _ _ w c L); auto|apply st_snoc_any; auto]. }
    destruct K as (w1 & o & L1 & E). destruct (IH _ _ b L1) as (w' & L' & E'). exists w'. rewrite <- app_assoc in L'. split; [exact L'|].
    cbn [app gentle_loop]. rewrite E, E'. now rewrite app_assoc.
  Qed.
  Lemma loop_space s w c t : long_word space quote ap d_or_o s w -> space c = true -> ~ unfinished quote ap d_or_o w ->
    loop AfterWhitespace (s ++ c :: t) = loop AfterWhitespace s ++ c :: loop AfterWhitespace t.
  Proof.
    intros L S U. destruct (loop_long s [] [] (c :: t) (Begin _ _ _ _)) as (w' & L' & E). cbn [app st] in L', E.
    rewrite (long_word_unique is_bytes upper ap dq s _ _ L' L) in *. etransitivity; [exact E|]. f_equal. rewrite unfinished_st in U.
    cbn [gentle_loop]. destruct (st upper ap dq w); try (destruct U; exact Logic.I); unfold gentle_step; fold (sp is_bytes c); rewrite S; reflexivity.
  Qed.
  Lemma long_so_far before w : long_word space quote ap d_or_o before w -> exists a, before = a ++ w /\ (a = [] \/ exists r c, a = r ++ [c] /\ space c = true).
  Proof.
    induction 1 as [|before w c L (a & -> & A) H|before w c L IH S N]; [exists []; auto|exists a; split; [now rewrite app_assoc|auto]|].
    exists (before ++ [c]). rewrite app_nil_r. split; auto. right. eauto.
  Qed.
  Lemma unfinished_so_far before w : (forall c, quote c = true -> space c = false) -> long_word space quote ap d_or_o before w -> unfinished quote ap d_or_o w -> word_so_far space before w.
  Proof.
    intros M L U. destruct (long_so_far _ _ L) as (a & E & A). exists a. split; auto. split; auto.
    assert (F : forall d, (exists b v, long_word space quote ap d_or_o b v /\ v = [d]) -> space d = false).
    { intros d (b & v & Lv & ->). inversion Lv as [|b0 v0 c0 L0 H0 E0 E1|]; subst. destruct v0 as [|x [|]]; cbn in E1; try discriminate. injection E1 as <-.
      destruct H0 as [H0|H0]; auto. destruct H0 as [[N _]|[(y & Y & _)|(y & z & Y & _)]]; [congruence|discriminate|discriminate]. }
    destruct U as [[N Q]|[(d & -> & _ & _)|(d & x & -> & Nd & Dd & Ax)]].
    - destruct (existsb space w) eqn:X; auto. apply existsb_exists in X. destruct X as (y & I & Y). rewrite forallb_forall in Q. specialize (M y (Q y I)). congruence.
    - cbn. rewrite (F d) by (exists before, [d]; auto). reflexivity.
    - cbn. assert (Fd : space d = false); [|rewrite Fd, (M x); [reflexivity|unfold qu; now rewrite Ax]]. apply F.
      inversion L as [|b0 v0 c0 L0 H0 E0 E1|]; subst. destruct v0 as [|y [|y' l]]; cbn in E1; try discriminate; [injection E1 as <- <-; eauto|]. apply (f_equal (@length chr)) in E1. cbn in E1. rewrite app_length in E1. cbn in E1. lia.
  Qed.
End Laws.

Section Statements.
  Context (is_bytes : bool) (upper : chr -> str) (apostrophes double_quotes : option (list str)).
  Notation title s := (gently_title is_bytes upper s apostrophes double_quotes).
  Notation space := (fun c => white is_bytes c || (c =? 40)%N).
  Notation apostrophe := (fun c => str_in [c] (match apostrophes with Some l => l | None => default_apostrophes is_bytes end)).
  Notation quote := (fun c => str_in [c] (match apostrophes with Some l => l | None => default_apostrophes is_bytes end) || str_in [c] (match double_quotes with Some l => l | None => default_double_quotes is_bytes end)).
  Notation d_or_o := (fun c => contains (upper c) (u "DO")).
  (** What is written of a text does not depend on what follows it. *)
  Theorem C148_prefix : forall s t out, title (s ++ t) = Ok out -> exists first rest, title s = Ok first /\ out = first ++ rest.
  Proof.
    intros s t out E. unfold gently_title in *. destruct (quote_set _ apostrophes) as [ap|]; [|discriminate]. destruct (quote_set _ double_quotes) as [dq|]; [|discriminate].
    apply Ok_inj in E. subst out. destruct (loop_long is_bytes upper ap dq s [] [] t (Begin _ _ _ _)) as (w & _ & X). eexists. eexists. split; [reflexivity|exact X].
  Qed.
  (** The part before a space or left parenthesis and the part after it can be titled separately,
      unless the word the part before ends with is made of quote marks, is the letter D or O, or is
      that letter and an apostrophe. *)
  Theorem C148_parts_partial : forall s w c t first second,
    (forall x, quote x = true -> space x = false) ->
    space c = true -> word_so_far space s w -> ~ only_quotes quote w -> ~ name_letter quote d_or_o w -> ~ name_prefix quote apostrophe d_or_o w ->
    title s = Ok first -> title t = Ok second -> title (s ++ c :: t) = Ok (first ++ c :: second).
  Proof.
    intros s w c t first second M S W Nq Nl Np E1 E2. unfold gently_title in *.
    destruct (quote_set _ apostrophes) as [ap|] eqn:A; [|discriminate]. destruct (quote_set _ double_quotes) as [dq|] eqn:D; [|discriminate].
    apply quote_set_ok in A, D. subst ap dq. apply Ok_inj in E1, E2. subst first second. f_equal.
    destruct (C49_rules_exact_total is_bytes upper apostrophe (fun c => str_in [c] (match double_quotes with Some l => l | None => default_double_quotes is_bytes end)) s) as (v & L & _).
    apply (loop_space is_bytes upper _ _ s v c t L S). intros U. pose proof (unfinished_so_far is_bytes upper _ _ s v M L U) as V.
    pose proof (so_far_unique is_bytes s _ _ V W) as ->. destruct U as [U|[U|U]]; auto.
  Qed.
  (** For every text, in terms of the words gently_title really sees. *)
  Theorem C148_parts_exact : forall s w c t first second,
    long_word space quote apostrophe d_or_o s w -> space c = true -> ~ unfinished quote apostrophe d_or_o w ->
    title s = Ok first -> title t = Ok second -> title (s ++ c :: t) = Ok (first ++ c :: second).
  Proof.
    intros s w c t first second L S U E1 E2. unfold gently_title in *.
    destruct (quote_set _ apostrophes) as [ap|] eqn:A; [|discriminate]. destruct (quote_set _ double_quotes) as [dq|] eqn:D; [|discriminate].
    apply quote_set_ok in A, D. subst ap dq. apply Ok_inj in E1, E2. subst first second. f_equal. exact (loop_space is_bytes upper _ _ s w c t L S U).
  Qed.
End Statements.
Print Assumptions C148_prefix.
Print Assumptions C148_parts_partial.
Print Assumptions C148_parts_exact.

(** With the default marks no mark is a space. *)
Lemma C148_default_marks : forall is_bytes x, str_in [x] (default_apostrophes is_bytes) || str_in [x] (default_double_quotes is_bytes) = true -> white is_bytes x || (x =? 40)%N = false.
Proof.
  intros is_bytes x H. apply orb_true_iff in H. assert (I : In [x] (default_apostrophes is_bytes ++ default_double_quotes is_bytes)).
  { apply in_app_iff. rewrite <- !str_in_iff. exact H. }
  clear H. destruct is_bytes; cbn in I; repeat (destruct I as [I|I]; [injection I as <-; reflexivity|]); destruct I.
Qed.
(** The guard is needed: 'plan d works' is not titled word by word. *)
Theorem C148_parts_refuted : exists s c t first second, white false c = true /\
  gently_title false ascii_upper s None None = Ok first /\ gently_title false ascii_upper t None None = Ok second /\
  gently_title false ascii_upper (s ++ c :: t) None None <> Ok (first ++ c :: second).
Proof. exists (u "plan d"), 32%N, (u "works"), (u "Plan D"), (u "Works"). repeat split; try (vm_compute; reflexivity). vm_compute. discriminate. Qed.
Print Assumptions C148_parts_refuted.
Example C148_witness : gently_title false ascii_upper (u "(said 'no' to") None None = Ok (u "(Said 'No' To") /\
  gently_title false ascii_upper (u "o'toole") None None = Ok (u "O'Toole") /\
  gently_title false ascii_upper (u "(said 'no' to" ++ 32%N :: u "o'toole") None None = Ok (u "(Said 'No' To" ++ 32%N :: u "O'Toole").
Proof. repeat split; vm_compute; reflexivity. Qed.
Example C148_hypotheses : let quote := fun c => str_in [c] (default_apostrophes false) || str_in [c] (default_double_quotes false) in
  word_so_far (fun c => white false c || (c =? 40)%N) (u "(said 'no' to") (u "to") /\ ~ only_quotes quote (u "to").
Proof.
  split; [|intros [_ H]; vm_compute in H; discriminate]. exists (u "(said 'no' "). split; [reflexivity|]. split; [right; exists (u "(said 'no'"), 32%N; split; reflexivity|reflexivity].
Qed.
