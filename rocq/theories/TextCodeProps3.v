(** C76, exactly: what split_text_with_code loses. *)
From Verif Require Import PyStrProof TextCodeModel TextCodeSpec TextCodeProof TextCodeProof2 TextCodeProof3 TextCodeProps.

(** The line has a word, and the column of the first is code_indent or more. *)
Definition code_line (is_bytes : bool) (tab_width : nat) (allow_code : bool) (code_indent : nat) (line : str) : Prop :=
  exists l x rest, line = l ++ x :: rest /\ blank_text is_bytes l /\ white is_bytes x = false /\ indented tab_width allow_code code_indent l.

Section Exact.
  Context (is_bytes : bool) (tab_width : nat) (allow_code : bool) (code_indent : nat) (conv : bool) (tab_pos : 0 < tab_width).
  Notation state := (TextCodeModel.state tab_width allow_code code_indent conv).
  Notation write := (TextCodeModel.write is_bytes tab_width allow_code code_indent conv).
  Notation write_all := (TextCodeModel.write_all is_bytes tab_width allow_code code_indent conv).
  Notation run := (TextCodeProof.run tab_width allow_code code_indent conv).
  Notation ink := (TextCodeSpec.ink is_bytes).
  Notation sane := (TextCodeProof3.sane is_bytes).
  Notation inv := (TextCodeProof3.inv is_bytes).

  Lemma run_code_keep toks : Forall (fun t => word_text is_bytes (snd t)) toks -> forall s s', c_state s = In_code_line -> run s toks = Ok s' ->
    c_words s' = c_words s.
  Proof.
    induction 1 as [|[l w] toks W F IH]; intros s s' E R; cbn [TextCodeProof.run fst snd] in R; [injection R as <-; reflexivity|].
    unfold TextCodeModel.state at 1 in R. rewrite E in R. unfold state_in_code_line in R. cbn [snd] in W. rewrite (word_not_newline is_bytes w W) in R.
    destruct (code_leading _ _ _ _) as [[p col]|]; [|discriminate]. cbn [rmap rbind] in R. apply IH in R; [exact R|exact E].
  Qed.
  Lemma newline_at_line s l s' : state s l newline_string = Ok s' -> at_line s'.
  Proof.
    unfold TextCodeModel.state, at_line. intros E. destruct (c_state s) eqn:ES.
    - injection E as <-. auto.
    - cbn in E. injection E as <-. unfold line_start_newline. destruct (is_code (c_prev s)); cbn; auto.
    - cbn in E. injection E as <-. cbn. auto.
    - cbn in E. injection E as <-. unfold line_start_newline. destruct (is_code _); cbn; auto.
  Qed.
  Lemma write_at_line w w' : write w 10%N = Ok w' -> exists s, w' = ([], [], s) /\ at_line s.
  Proof.
    destruct w as [[l word] s]. unfold TextCodeModel.write. rewrite (white_nl is_bytes). cbn [negb N.eqb Pos.eqb].
    destruct word as [|x word]; intros E.
    - match type of E with rmap _ ?r = _ => destruct r as [s1|] eqn:E1 end; [|discriminate]. cbn [rmap] in E. injection E as <-. exists s1. split; auto. eapply newline_at_line; eauto.
    - destruct (state s l (x :: word)) as [s1|] eqn:E1; [|discriminate]. cbn [rbind] in E.
      destruct (state s1 [] newline_string) as [s2|] eqn:E2; [|discriminate]. cbn [rmap] in E. injection E as <-. exists s2. split; auto. eapply newline_at_line; eauto.
  Qed.
  Lemma line_start_first s l w s' : c_state s = Line_start -> word_text is_bytes w ->
    state_line_start tab_width allow_code code_indent conv s l w = Ok s' ->
    (indented tab_width allow_code code_indent l /\ c_state s' = In_code_line /\ ink (concat (c_words s')) = ink (concat (c_words s))) \/
    (~ indented tab_width allow_code code_indent l /\ c_state s' = In_text_line).
  Proof.
    intros ES W E. unfold state_line_start in E. rewrite (word_not_newline is_bytes w W) in E.
    assert (T : forall s0, c_state (start_text_line s0 l w) = In_text_line).
    { intros s0. unfold start_text_line, state_text_line_start, state_in_text_line. now rewrite (word_not_newline is_bytes w W). }
    assert (C : forall s0, state_code_line_start tab_width conv s0 l w = Ok s' -> c_state s' = In_code_line /\ c_words s' = c_words s0).
    { intros s0. unfold state_code_line_start, state_in_code_line. rewrite (word_not_newline is_bytes w W).
      destruct (code_leading _ _ _ _) as [[p col]|]; [|discriminate]. cbn [rmap]. intros H. injection H as <-. auto. }
    unfold indented. destruct allow_code; [|right; injection E as <-; split; [intros [H _]; discriminate|apply T]].
    rewrite column_leading in E by exact tab_pos. destruct (column tab_width l 0) as [col|]; [|discriminate]. cbn [rbind] in E.
    destruct (Nat.leb_spec code_indent col).
    - left. split; [eauto|]. destruct (is_text (c_prev s)).
      + destruct (c_code s); [|discriminate]. destruct (C _ E) as [C1 ->]. split; auto. crec. rewrite concat_app, ink_app. cbn [concat]. rewrite app_nil_r, (ink_pp is_bytes). apply app_nil_r.
      + destruct (C _ E) as [C1 ->]. split; auto. cbn [set_code c_words]. apply (fold_breaks_ink is_bytes).
    - right. injection E as <-. split; [|apply T]. intros (_ & col' & Q & L). injection Q as <-. lia.
  Qed.
  Lemma first_word s l w s' : at_line s -> word_text is_bytes w -> state s l w = Ok s' ->
    (indented tab_width allow_code code_indent l /\ c_state s' = In_code_line /\ ink (concat (c_words s')) = ink (concat (c_words s))) \/
    (~ indented tab_width allow_code code_indent l /\ c_state s' = In_text_line).
  Proof.
    intros A W E. unfold TextCodeModel.state in E. destruct A as [A|A]; rewrite A in E.
    - unfold state_paragraph_start in E. rewrite (word_not_newline is_bytes w W) in E.
      apply line_start_first in E; [|destruct (c_prev s); reflexivity|exact W]. destruct E as [(E1 & E2 & E3)|E]; [left|right; exact E].
      split; auto. split; auto. rewrite E3. destruct (c_prev s); crec; auto. rewrite concat_app, ink_app. cbn [concat]. rewrite app_nil_r, (ink_pp is_bytes). apply app_nil_r.
    - eapply line_start_first; eauto.
  Qed.
  Lemma tokens_first line l w toks : tokens_of is_bytes line ((l, w) :: toks) -> exists rest, line = l ++ w ++ rest /\ blank_text is_bytes l /\ word_text is_bytes w.
  Proof. intros T. inversion T; subst. eauto. Qed.

  Lemma keeps_exact pre last ws : split_text_with_code is_bytes tab_width allow_code code_indent conv (pre ++ last) = Ok ws ->
    (pre = [] \/ exists a, pre = a ++ [10%N]) -> ~ In 10%N last ->
    (code_line is_bytes tab_width allow_code code_indent last -> ink (concat ws) = ink pre) /\
    (~ code_line is_bytes tab_width allow_code code_indent last -> ink (concat ws) = ink (pre ++ last)).
  Proof.
    intros E P N. unfold split_text_with_code in E.
    assert (I0 : inv ([], [], Cws [] [] None 0 Paragraph_start) []).
    { split; [reflexivity|]. split; [constructor|]. split; [intros _; reflexivity|discriminate]. }
    rewrite write_all_app in E. destruct (write_all _ pre) as [w1|] eqn:E1; [|discriminate]. cbn [rbind] in E.
    pose proof (write_all_inv is_bytes tab_width allow_code code_indent conv _ _ _ _ E1 I0) as I1. cbn [app] in I1.
    assert (AT : exists s1, w1 = ([], [], s1) /\ at_line s1).
    { destruct P as [->|(a & ->)].
      - injection E1 as <-. eexists. split; [reflexivity|]. left. reflexivity.
      - rewrite write_all_app in E1. destruct (write_all _ a) as [w0|]; [|discriminate]. cbn [rbind TextCodeModel.write_all] in E1.
        destruct (write w0 10%N) as [w0'|] eqn:E0; [|discriminate]. injection E1 as <-. eapply write_at_line; eauto. }
    destruct AT as (s1 & -> & AT). destruct I1 as (I1 & _ & S1). rewrite app_nil_r in I1.
    assert (NC1 : c_state s1 <> In_code_line) by (destruct AT as [->| ->]; discriminate).
    assert (W1 : ink (concat (c_words s1)) = ink pre) by (rewrite <- I1; unfold ink_of; rewrite (proj1 S1 NC1); now rewrite app_nil_r).
    destruct (tokens_exist is_bytes last) as [toks T].
    destruct (write_all ([], [], s1) last) as [w2|] eqn:E2; [|discriminate]. cbn [rbind] in E.
    destruct (TextCodeModel.close _ _ _ _ w2) as [s2|] eqn:E3; [|discriminate]. cbn [rmap] in E. apply ok_inj in E.
    assert (EI : ink (concat ws) = ink (concat (c_words s2))) by (rewrite <- E; destruct (c_words s2); reflexivity).
    rewrite EI. clear E EI ws.
    pose proof (feed_last is_bytes tab_width allow_code code_indent conv last toks T s1 N) as FL. rewrite E2 in FL. cbn [rbind] in FL. rewrite E3 in FL.
    symmetry in FL. clear E2 E3 w2 E1 I0.
    destruct toks as [|[l w] toks].
    - cbn in FL. injection FL as <-. inversion T as [? B|]; subst. split.
      + intros _. exact W1.
      + intros _. rewrite ink_app, (ink_blank is_bytes last B), app_nil_r. exact W1.
    - destruct (tokens_first _ _ _ _ T) as (rest & EL & B & W). pose proof (tokens_words is_bytes _ _ T) as F. inversion F as [|? ? _ F']; subst.
      cbn [TextCodeProof.run fst snd] in FL. destruct (state s1 l w) as [s1'|] eqn:E1; [|discriminate]. cbn [rbind] in FL.
      assert (CL : code_line is_bytes tab_width allow_code code_indent (l ++ w ++ rest) <-> indented tab_width allow_code code_indent l).
      { split.
        - intros (l' & x & r & Q & B' & X & IND). replace l with l'; auto.
          destruct W as [WN WW]. destruct w as [|y w]; [congruence|]. cbn [app] in Q. inversion WW as [|? ? Y _]; subst.
          clear - Q B B' X Y. revert l' Q B'. induction B as [|c l Hc B IH]; intros [|c' l'] Q B'; cbn in Q; auto.
          + injection Q as -> Q. inversion B'; subst. congruence.
          + injection Q as -> Q. congruence.
          + injection Q as -> Q. inversion B'; subst. f_equal. auto.
        - intros IND. destruct W as [WN WW]. destruct w as [|y w]; [congruence|]. inversion WW; subst. exists l, y, (w ++ rest). auto. }
      rewrite CL. destruct (first_word _ _ _ _ AT W E1) as [(IND & ES & EW)|(IND & ES)].
      + split; [intros _|tauto]. rewrite (run_code_keep _ F' _ _ ES FL), EW. exact W1.
      + split; [tauto|intros _]. rewrite (run_text is_bytes tab_width allow_code code_indent conv toks s1' F' ES) in FL. injection FL as <-. cbn [c_words].
        destruct (state_sane is_bytes tab_width allow_code code_indent conv _ _ _ _ E1 S1) as (A & C & _).
        assert (W2 : ink (concat (c_words s1')) = ink pre ++ ink w).
        { rewrite <- I1. rewrite <- A. unfold ink_of. rewrite C by (rewrite ES; discriminate). now rewrite app_nil_r. }
        rewrite concat_app, !ink_app, W2, <- app_assoc. f_equal. rewrite (ink_blank is_bytes l B). cbn [app]. f_equal.
        assert (G : forall line toks, tokens_of is_bytes line toks -> ink line = ink (concat (map snd toks))).
        { induction 1 as [l0 B0|l0 w0 r0 t0 B0 W0 R0 T0 IH]; [now rewrite (ink_blank is_bytes l0 B0)|].
          cbn [map concat snd]. rewrite !ink_app, (ink_blank is_bytes l0 B0), IH. reflexivity. }
        inversion T as [|? ? ? ? ? ? ? T']; subst. apply G in T'. symmetry.
        match goal with H : l ++ w ++ _ = l ++ w ++ rest |- _ => apply app_inv_head in H; apply app_inv_head in H; subst end. exact T'.
  Qed.
End Exact.

(** What is lost is the last line, if it is code and has no newline, and otherwise nothing: let
    last be what follows the last newline of the text (or the whole text). *)
Theorem C76_keeps_text_exact is_bytes tab_width allow_code code_indent conv pre last words : 0 < tab_width ->
  split_text_with_code is_bytes tab_width allow_code code_indent conv (pre ++ last) = Ok words ->
  (pre = [] \/ exists a, pre = a ++ [10%N]) -> ~ In 10%N last ->
  (code_line is_bytes tab_width allow_code code_indent last -> ink is_bytes (concat words) = ink is_bytes pre) /\
  (~ code_line is_bytes tab_width allow_code code_indent last -> ink is_bytes (concat words) = ink is_bytes (pre ++ last)).
Proof. intros T E P N. eapply keeps_exact; eauto. Qed.
Print Assumptions C76_keeps_text_exact.
(** "a\n    b" loses b; "a\n   b" loses nothing *)
Example C76_exact_nonvacuous :
  split_text_with_code false 8 true 4 true ([97; 10] ++ [32; 32; 32; 32; 98])%N = Ok [[97]; [10; 10]]%N /\ code_line false 8 true 4 [32; 32; 32; 32; 98]%N /\
  split_text_with_code false 8 true 4 true ([97; 10] ++ [32; 32; 32; 98])%N = Ok [[97]; [98]]%N.
Proof.
  split; [reflexivity|]. split; [|reflexivity]. exists [32; 32; 32; 32]%N, 98%N, []. split; [reflexivity|]. split; [repeat constructor|]. split; [reflexivity|].
  split; [reflexivity|]. exists 4. split; [reflexivity|lia].
Qed.
