(** Proofs about split_text_with_code: every character that is not whitespace; every string has lines, every line a class. *)
From Verif Require Import PyStrProof TextCodeModel TextCodeSpec TextCodeProof TextCodeProof2.

Lemma ok_inj {A} (a b : A) : Ok a = Ok b -> a = b. Proof. intros H. injection H; auto. Qed.
Section Ink.
  Context (is_bytes : bool) (tab_width : nat) (allow_code : bool) (code_indent : nat) (conv : bool).
  Notation state := (state tab_width allow_code code_indent conv).
  Notation write := (write is_bytes tab_width allow_code code_indent conv).
  Notation write_all := (write_all is_bytes tab_width allow_code code_indent conv).
  Notation close := (close tab_width allow_code code_indent conv).
  Notation white := (white is_bytes).
  Notation ink := (ink is_bytes).
  Notation nl := newline_string.

  Lemma ink_app a b : ink (a ++ b) = ink a ++ ink b. Proof. apply filter_app. Qed.
  Lemma ink_blank l : blank_text is_bytes l -> ink l = [].
  Proof. induction 1 as [|c l H F IH]; [reflexivity|]. unfold TextCodeSpec.ink. cbn [filter]. rewrite H. exact IH. Qed.
  Lemma ink_nl : ink nl = []. Proof. apply ink_blank. repeat constructor. apply white_nl. Qed.
  Lemma ink_pp : ink paragraph_string = []. Proof. apply ink_blank. repeat constructor; apply white_nl. Qed.
  Definition ink_of (s : cws) : str := ink (concat (c_words s)) ++ ink (concat (c_code s)).
  Definition calm (s : cws) : Prop := c_state s <> In_code_line -> ink (concat (c_code s)) = [].
  Lemma concat_snoc (l : list str) w : ink (concat (l ++ [w])) = ink (concat l) ++ ink w.
  Proof. rewrite concat_app, ink_app. cbn [concat]. rewrite app_nil_r. reflexivity. Qed.
  Lemma white9 : white 9%N = true. Proof. destruct is_bytes; reflexivity. Qed.
  Lemma white32 : white 32%N = true. Proof. destruct is_bytes; reflexivity. Qed.
  Lemma ink_repeat c n : white c = true -> ink (repeat c n) = [].
  Proof. intros H. apply ink_blank. unfold blank_text. apply Forall_forall. intros x I. apply repeat_spec in I. now subst. Qed.
  Lemma code_leading_ink l col p col' : code_leading tab_width conv l col = Ok (p, col') -> ink (concat p) = [].
  Proof.
    revert col p col'. induction l as [|c l IH]; intros col p col' E; cbn [code_leading] in E; [injection E as <- <-; reflexivity|].
    destruct (N.eqb_spec c 9) as [-> |].
    - destruct (tab_width =? 0); [discriminate|]. destruct (code_leading tab_width conv l _) as [[p1 c1]|] eqn:E1; [|discriminate].
      cbn [rmap] in E. apply IH in E1. destruct conv; injection E as <- <-; cbn [concat]; rewrite ink_app, E1, app_nil_r; [apply ink_repeat, white32 | apply ink_blank; repeat constructor; apply white9].
    - destruct (N.eqb_spec c 32) as [-> |]; [|discriminate]. destruct (code_leading tab_width conv l _) as [[p1 c1]|] eqn:E1; [|discriminate].
      cbn [rmap] in E. apply IH in E1. injection E as <- <-. cbn [concat]. rewrite ink_app, E1, app_nil_r. apply ink_blank; repeat constructor; apply white32.
  Qed.
  Lemma in_code_ink s l w s' : state_in_code_line tab_width conv s l w = Ok s' -> c_prev s = Some Code_paragraph -> c_state s = In_code_line ->
    ink_of s' = ink_of s ++ ink w /\ calm s' /\ (is_newline w = true -> c_state s' = Line_start).
  Proof.
    unfold state_in_code_line, is_newline. destruct (str_eqb w newline_string) eqn:EN; intros E P EC.
    - apply str_eqb_eq in EN. subst w. injection E as <-. unfold line_start_newline, ink_of, calm. crec. rewrite P. crec. cbn [is_code c_words c_code c_state].
      cbn [app concat]. rewrite concat_snoc, ?app_nil_r, ink_nl, ?app_nil_r. repeat split; reflexivity.
    - destruct (code_leading tab_width conv l (c_col s)) as [[p col]|] eqn:EL; [|discriminate]. injection E as <-. apply code_leading_ink in EL.
      unfold ink_of, calm. cbn [c_words c_code c_state]. split; [|split].
      + rewrite concat_app, ink_app, concat_snoc, EL. cbn [app]. rewrite app_assoc. reflexivity.
      + intros C. contradiction.
      + discriminate.
  Qed.
  Lemma fold_breaks_ink {A} (l : list A) s : ink (concat (c_words (fold_left (fun c _ => line_break c) l s))) = ink (concat (c_words s)).
  Proof. rewrite fold_line_break. cbn [c_words]. induction l as [|x l IH]; cbn [map]; [rewrite app_nil_r; reflexivity|].
    rewrite concat_app, ink_app. cbn [concat]. rewrite ink_app, ink_nl. cbn [app]. rewrite <- ink_app, <- concat_app. exact IH. Qed.
  Lemma start_text_ink s l w : (is_newline w = false) -> ink (concat (c_code s)) = [] ->
    ink_of (start_text_line s l w) = ink_of s ++ ink w /\ calm (start_text_line s l w).
  Proof.
    intros N C. unfold start_text_line, state_text_line_start, state_in_text_line. rewrite N. unfold ink_of, calm.
    destruct (is_code (c_prev s)); crec; rewrite ?concat_snoc, ?ink_pp, ?C, ?app_nil_r; split; auto.
  Qed.
  Lemma line_start_ink s l w s' : state_line_start tab_width allow_code code_indent conv s l w = Ok s' -> ink (concat (c_code s)) = [] -> c_state s = Line_start ->
    ink_of s' = ink_of s ++ ink w /\ calm s' /\ (is_newline w = true -> c_state s' <> In_code_line).
  Proof.
    unfold state_line_start. destruct (is_newline w) eqn:EN; intros E C ES.
    - apply str_eqb_eq in EN. subst w. injection E as <-. unfold line_start_newline. destruct (is_code (c_prev s)); unfold ink_of, calm; crec; rewrite ?concat_snoc, ?ink_nl, ?app_nil_r; rewrite ?ES; repeat split; auto; discriminate.
    - assert (T : Ok (start_text_line s l w) = Ok s' -> ink_of s' = ink_of s ++ ink w /\ calm s' /\ (false = true -> c_state s' <> In_code_line)).
      { intros E1. injection E1 as <-. destruct (start_text_ink s l w EN C). split; [|split]; [assumption|assumption|discriminate]. }
      destruct allow_code; [|apply T, E]. destruct (leading_column tab_width l 0) as [col|]; [|discriminate]. cbn [rbind] in E.
      destruct (code_indent <=? col); [|apply T, E]. destruct (is_text (c_prev s)).
      + destruct (c_code s) as [|x cc] eqn:ECC; [|discriminate]. unfold state_code_line_start in E. apply in_code_ink in E; [|reflexivity|reflexivity].
        destruct E as (E1 & E2 & E3). split; [|split]; [|exact E2|discriminate]. rewrite E1. unfold ink_of. crec. rewrite concat_snoc, ink_pp, ECC. cbn. rewrite !app_nil_r. reflexivity.
      + unfold state_code_line_start in E. apply in_code_ink in E; [|reflexivity|reflexivity].
        destruct E as (E1 & E2 & E3). split; [|split]; [|exact E2|discriminate]. rewrite E1. unfold ink_of. crec. rewrite fold_breaks_ink, C. reflexivity.
  Qed.
  Definition sane (s : cws) : Prop := calm s /\ (c_state s = In_code_line -> c_prev s = Some Code_paragraph).
  Lemma state_sane s l w s' : state s l w = Ok s' -> sane s ->
    ink_of s' = ink_of s ++ ink w /\ calm s' /\ (is_newline w = true -> c_state s' <> In_code_line).
  Proof.
    unfold TextCodeModel.state. intros E [C P]. unfold calm in C. destruct (c_state s) eqn:ES.
    - unfold state_paragraph_start in E. destruct (is_newline w) eqn:EN.
      + apply str_eqb_eq in EN. subst w. injection E as <-. unfold calm. rewrite ES, ink_nl, app_nil_r. repeat split; auto; discriminate.
      + destruct (c_prev s) eqn:EP; (apply line_start_ink in E; [|crec; apply C; discriminate|reflexivity]); destruct E as (E1 & E2 & E3); rewrite EN in E3; (split; [|split; [exact E2|exact E3]]); rewrite E1; unfold ink_of; crec; rewrite ?concat_snoc, ?ink_pp, ?app_nil_r; reflexivity.
    - apply line_start_ink in E; [exact E | apply C; discriminate | exact ES].
    - assert (C' : ink (concat (c_code s)) = []) by (apply C; discriminate). injection E as <-. unfold state_in_text_line. destruct (is_newline w) eqn:EN; unfold calm, ink_of; crec.
      + apply str_eqb_eq in EN. subst w. rewrite ink_nl, app_nil_r. repeat split; auto. discriminate.
      + rewrite concat_snoc, C', !app_nil_r. repeat split; auto. discriminate.
    - destruct (in_code_ink _ _ _ _ E (P eq_refl) ES) as (E1 & E2 & E3). split; [exact E1|]. split; [exact E2|]. intros N. rewrite (E3 N). discriminate.
  Qed.
  Lemma in_code_prev s l w s' : state_in_code_line tab_width conv s l w = Ok s' -> c_prev s = Some Code_paragraph -> c_prev s' = Some Code_paragraph.
  Proof.
    unfold state_in_code_line. intros E P. destruct (is_newline w).
    - injection E as <-. unfold line_start_newline. crec. rewrite P. crec. reflexivity.
    - destruct (code_leading _ _ _ _) as [[]|]; [|discriminate]. injection E as <-. exact P.
  Qed.
  Lemma line_start_prev s l w s' : state_line_start tab_width allow_code code_indent conv s l w = Ok s' -> c_state s = Line_start ->
    (c_state s' = In_code_line -> c_prev s' = Some Code_paragraph).
  Proof.
    unfold state_line_start. intros E ES H. destruct (is_newline w) eqn:EN.
    - injection E as <-. unfold line_start_newline in H. destruct (is_code (c_prev s)); cbn in H; [rewrite ES in H|]; discriminate.
    - assert (T : Ok (start_text_line s l w) = Ok s' -> c_prev s' = Some Code_paragraph).
      { intros E1. injection E1 as <-. unfold start_text_line, state_text_line_start, state_in_text_line in H. rewrite EN in H. destruct (is_code (c_prev s)); discriminate H. }
      destruct allow_code; [|apply T, E]. destruct (leading_column tab_width l 0) as [col|]; [|discriminate]. cbn [rbind] in E.
      destruct (code_indent <=? col); [|apply T, E]. destruct (is_text (c_prev s)).
      + destruct (c_code s) as [|x cc] eqn:ECC; [|discriminate]. apply in_code_prev in E; [exact E|reflexivity].
      + apply in_code_prev in E; [exact E|reflexivity].
  Qed.
  Lemma state_keeps s l w s' : state s l w = Ok s' -> sane s -> sane s'.
  Proof.
    intros E S. split; [apply (state_sane _ _ _ _ E S)|]. destruct S as [_ P]. unfold TextCodeModel.state in E. destruct (c_state s) eqn:ES.
    - unfold state_paragraph_start in E. destruct (is_newline w) eqn:EN; [injection E as <-; rewrite ES; discriminate|].
      exact (line_start_prev _ _ _ _ E ltac:(destruct (c_prev s); reflexivity)).
    - exact (line_start_prev _ _ _ _ E ES).
    - injection E as <-. unfold state_in_text_line. destruct (is_newline w); cbn; [|rewrite ES]; discriminate.
    - intros _. apply in_code_prev in E; [exact E | apply P; reflexivity].
  Qed.
  Definition inv (w : writer) (consumed : str) : Prop :=
    let '(leading, word, s) := w in
    ink_of s ++ word = ink consumed /\ Forall (fun c => white c = false) word /\ sane s.
  Lemma ink_word w : Forall (fun c => white c = false) w -> ink w = w.
  Proof. induction 1 as [|c w H F IH]; [reflexivity|]. unfold TextCodeSpec.ink in *. cbn [filter]. rewrite H. cbn [negb]. rewrite IH. reflexivity. Qed.
  Lemma write_inv w c w' consumed : write w c = Ok w' -> inv w consumed -> inv w' (consumed ++ [c]) /\
    (c = 10%N -> snd (fst w') = [] /\ c_state (snd w') <> In_code_line).
  Proof.
    destruct w as [[l word] s]. unfold inv, TextCodeModel.write. intros E (I & W & S). rewrite ink_app. destruct (white c) eqn:EW; cbn [negb] in E.
    - assert (IC : ink [c] = []) by (apply ink_blank; repeat constructor; exact EW). rewrite IC, app_nil_r.
      destruct word as [|x word]; destruct (N.eqb_spec c 10) as [-> |NC].
      + change [10%N] with nl in E. destruct (state s l nl) as [s'|] eqn:E1; [|discriminate]. cbn [rmap] in E; injection E as <-. cbn [fst snd].
        destruct (state_sane _ _ _ _ E1 S) as (A & B & D). split; [|intros _; split; [reflexivity|apply D; reflexivity]].
        split; [|split; [constructor | apply (state_keeps _ _ _ _ E1 S)]]. rewrite A, ink_nl, app_nil_r. exact I.
      + cbn [rmap] in E; injection E as <-. split; [split; [exact I|split; [constructor|exact S]]|intros ->; contradiction].
      + destruct (state s l (x :: word)) as [s1|] eqn:E1; [|discriminate]. cbn [rbind] in E. destruct (state s1 [] nl) as [s2|] eqn:E2; [|discriminate]. cbn [rmap] in E; injection E as <-. cbn [fst snd].
        destruct (state_sane _ _ _ _ E1 S) as (A & _ & _). pose proof (state_keeps _ _ _ _ E1 S) as S1.
        destruct (state_sane _ _ _ _ E2 S1) as (A2 & _ & D). split; [|intros _; split; [reflexivity|apply D; reflexivity]].
        split; [|split; [constructor | apply (state_keeps _ _ _ _ E2 S1)]]. rewrite A2, ink_nl, !app_nil_r, A, (ink_word _ W). exact I.
      + destruct (state s l (x :: word)) as [s1|] eqn:E1; [|discriminate]. cbn [rmap] in E; injection E as <-.
        destruct (state_sane _ _ _ _ E1 S) as (A & _ & _). split; [|intros ->; contradiction].
        split; [|split; [constructor | apply (state_keeps _ _ _ _ E1 S)]]. rewrite app_nil_r, A, (ink_word _ W). exact I.
    - cbn [rmap] in E; injection E as <-. assert (IC : ink [c] = [c]) by (apply ink_word; repeat constructor; exact EW). rewrite IC. split.
      + split; [rewrite app_assoc, I; reflexivity|]. split; [apply Forall_app; split; [exact W|repeat constructor; exact EW]|exact S].
      + intros ->. rewrite white_nl in EW. discriminate.
  Qed.
  Lemma write_all_inv s w w' consumed : write_all w s = Ok w' -> inv w consumed -> inv w' (consumed ++ s).
  Proof.
    revert w consumed. induction s as [|c s IH]; intros w consumed E I; cbn [TextCodeModel.write_all] in E.
    - cbn [rmap] in E; injection E as <-. rewrite app_nil_r. exact I.
    - destruct (write w c) as [w1|] eqn:E1; [|discriminate]. cbn [rbind] in E. destruct (write_inv _ _ _ _ E1 I) as [I1 _].
      specialize (IH _ _ E I1). rewrite <- app_assoc in IH. exact IH.
  Qed.
  Lemma blank_keeps b w w' : blank_text is_bytes b -> snd (fst w) = [] -> c_state (snd w) <> In_code_line -> write_all w b = Ok w' ->
    inv w [] \/ (exists c, inv w c) -> snd (fst w') = [] /\ c_state (snd w') <> In_code_line.
  Proof.
    intros B. revert w. induction B as [|c b Hc B IH]; intros w N C E I; cbn [TextCodeModel.write_all] in E.
    - cbn [rmap] in E; injection E as <-. auto.
    - destruct (write w c) as [w1|] eqn:E1; [|discriminate]. cbn [rbind] in E.
      assert (I' : exists cc, inv w cc) by (destruct I as [I|I]; [eexists; exact I|exact I]). destruct I' as [cc I'].
      destruct (write_inv _ _ _ _ E1 I') as [I1 D]. destruct w as [[l word] s]. cbn [fst snd] in *. subst word.
      apply (IH w1); try assumption.
      + destruct (N.eqb_spec c 10) as [-> |NC]; [apply D; reflexivity|]. unfold TextCodeModel.write in E1. rewrite Hc in E1. cbn [negb] in E1.
        rewrite (proj2 (N.eqb_neq c 10) NC) in E1. injection E1 as <-. reflexivity.
      + destruct (N.eqb_spec c 10) as [-> |NC]; [apply D; reflexivity|]. unfold TextCodeModel.write in E1. rewrite Hc in E1. cbn [negb] in E1.
        rewrite (proj2 (N.eqb_neq c 10) NC) in E1. injection E1 as <-. exact C.
      + right. eexists. exact I1.
  Qed.
  Lemma state_no_code s l w s' : allow_code = false -> state s l w = Ok s' -> c_state s <> In_code_line -> c_state s' <> In_code_line.
  Proof.
    intros EA E N. unfold TextCodeModel.state in E. destruct (c_state s) eqn:ES; [| | |contradiction].
    - unfold state_paragraph_start in E. destruct (is_newline w) eqn:EN; [cbn [rmap] in E; injection E as <-; rewrite ES; discriminate|].
      unfold state_line_start in E. rewrite EN, EA in E. cbn [rmap] in E; injection E as <-. unfold start_text_line, state_text_line_start, state_in_text_line. rewrite EN. cbn. discriminate.
    - unfold state_line_start in E. rewrite EA in E. destruct (is_newline w) eqn:EN.
      + cbn [rmap] in E; injection E as <-. unfold line_start_newline. destruct (is_code (c_prev s)); cbn; [rewrite ES|]; discriminate.
      + cbn [rmap] in E; injection E as <-. unfold start_text_line, state_text_line_start, state_in_text_line. rewrite EN. cbn. discriminate.
    - cbn [rmap] in E; injection E as <-. unfold state_in_text_line. destruct (is_newline w); cbn; [|rewrite ES]; discriminate.
  Qed.
  Lemma write_no_code w c w' : allow_code = false -> write w c = Ok w' -> c_state (snd w) <> In_code_line -> c_state (snd w') <> In_code_line.
  Proof.
    intros EA E N. destruct w as [[l word] s]. unfold TextCodeModel.write in E. cbn [snd] in N. destruct (negb (white c)); [cbn [rmap] in E; injection E as <-; exact N|].
    destruct word as [|x word]; destruct (c =? 10)%N.
    - destruct (state s l [c]) eqn:E1; [|discriminate]. cbn [rmap] in E; injection E as <-. apply (state_no_code _ _ _ _ EA E1 N).
    - cbn [rmap] in E; injection E as <-. exact N.
    - destruct (state s l (x :: word)) eqn:E1; [|discriminate]. cbn [rbind] in E. destruct (state a [] nl) eqn:E2; [|discriminate]. cbn [rmap] in E; injection E as <-.
      apply (state_no_code _ _ _ _ EA E2), (state_no_code _ _ _ _ EA E1 N).
    - destruct (state s l (x :: word)) eqn:E1; [|discriminate]. cbn [rmap] in E; injection E as <-. apply (state_no_code _ _ _ _ EA E1 N).
  Qed.
  Lemma write_all_no_code s w w' : allow_code = false -> write_all w s = Ok w' -> c_state (snd w) <> In_code_line -> c_state (snd w') <> In_code_line.
  Proof.
    intros EA. revert w. induction s as [|c s IH]; intros w E N; cbn [TextCodeModel.write_all] in E; [cbn [rmap] in E; injection E as <-; exact N|].
    destruct (write w c) as [w1|] eqn:E1; [|discriminate]. apply (IH _ E), (write_no_code _ _ _ EA E1 N).
  Qed.
  Lemma split_ink s ws : split_text_with_code is_bytes tab_width allow_code code_indent conv s = Ok ws ->
    exists lost, ink s = ink (concat ws) ++ lost /\ (allow_code = false \/ (exists a b, s = a ++ nl ++ b /\ blank_text is_bytes b) -> lost = []).
  Proof.
    unfold split_text_with_code. intros E. destruct (write_all ([], [], Cws [] [] None 0 Paragraph_start) s) as [w|] eqn:EW; [|discriminate]. cbn [rbind] in E.
    destruct (close w) as [c|] eqn:EC; [|discriminate]. cbn [rmap] in E. apply ok_inj in E.
    assert (I0 : inv ([], [], Cws [] [] None 0 Paragraph_start) []).
    { split; [reflexivity|]. split; [constructor|]. split; [intros _; reflexivity|discriminate]. }
    pose proof (write_all_inv _ _ _ _ EW I0) as I. cbn [app] in I.
    assert (EI : ink (concat ws) = ink (concat (c_words c))) by (rewrite <- E; destruct (c_words c); reflexivity).
    rewrite EI. destruct w as [[l word] st]. cbn [TextCodeModel.close] in EC. destruct I as (I & W & S).
    assert (FI : ink_of c = ink s /\ sane c /\ (allow_code = false -> c_state c <> In_code_line)).
    { pose proof (fun EA => write_all_no_code _ _ _ EA EW) as NC. cbn [snd c_state] in NC. destruct word as [|x word].
      - injection EC as <-. rewrite app_nil_r in I. repeat split; auto; try apply S. intros EA. apply NC; [exact EA|discriminate].
      - destruct (state_sane _ _ _ _ EC S) as (A & _ & _). split; [rewrite A, (ink_word _ W); exact I|]. split; [apply (state_keeps _ _ _ _ EC S)|].
        intros EA. apply (state_no_code _ _ _ _ EA EC). apply NC; [exact EA|discriminate]. }
    destruct FI as (FI & FS & FN). exists (ink (concat (c_code c))). split; [symmetry; exact FI|].
    intros [EA | (a & b & -> & B)]; [apply FS, FN, EA|].
    rewrite app_assoc, write_all_app in EW. destruct (write_all _ (a ++ nl)) as [w1|] eqn:EW1; [|discriminate EW]. cbn [rbind] in EW.
    rewrite write_all_app in EW1. destruct (write_all _ a) as [w0|] eqn:EW0; [|discriminate EW1]. cbn [rbind newline_string TextCodeModel.write_all] in EW1.
    pose proof (write_all_inv _ _ _ _ EW0 I0) as IA. destruct (write w0 10%N) as [w0'|] eqn:E0; [|discriminate]. cbn [rbind] in EW1. injection EW1 as ->.
    destruct (write_inv _ _ _ _ E0 IA) as [I1 D]. destruct (D eq_refl) as [D1 D2].
    destruct (blank_keeps b w1 _ B D1 D2 EW (or_intror (ex_intro _ _ I1))) as [G1 G2]. cbn [fst snd] in *. subst word.
    injection EC as <-. apply FS, G2.
  Qed.
  (** With allow_code false nothing is ever raised *)

  (** every line has words *)
  Lemma tokens_exist line : exists toks, tokens_of is_bytes line toks.
  Proof.
    induction line as [|c line [toks IH]]; [exists []; constructor; constructor|].
    destruct (white c) eqn:EW.
    - destruct IH as [l B | l w r toks B W R T].
      + exists []. constructor. constructor; assumption.
      + exists ((c :: l, w) :: toks). apply (Token is_bytes (c :: l) w r toks); auto. constructor; assumption.
    - inversion IH as [l B | l w r toks' B W R T]; subst.
      + exists [([], [c])]. apply (Token is_bytes [] [c] line []); [constructor|split; [discriminate|repeat constructor; exact EW]| |constructor; exact B].
        intros x y ->. inversion B; assumption.
      + destruct l as [|x l].
        * exists (([], c :: w) :: toks'). apply (Token is_bytes [] (c :: w) r toks'); [constructor|split; [discriminate|constructor; [exact EW|apply W]]|exact R|exact T].
        * exists (([], [c]) :: (x :: l, w) :: toks'). apply (Token is_bytes [] [c] ((x :: l) ++ w ++ r)); [constructor|split; [discriminate|repeat constructor; exact EW]| |exact IH].
          intros y z EQ. injection EQ as <- _. inversion B; assumption.
  Qed.
  Lemma tokens_leading line toks (P : chr -> Prop) : tokens_of is_bytes line toks -> (forall c, In c line -> white c = true -> P c) -> Forall (fun t => Forall P (fst t)) toks.
  Proof.
    intros T. induction T as [l B | l w r toks B W R T IH]; intros H; constructor.
    - cbn [fst]. unfold blank_text in B. rewrite Forall_forall in B |- *. intros c I. apply H; [apply in_or_app; left; exact I | apply B, I].
    - apply IH. intros c I. apply H. apply in_or_app. right. apply in_or_app. right. exact I.
  Qed.
  Lemma column_total l col : Forall (fun c => c = 9%N \/ c = 32%N) l -> exists col', column tab_width l col = Some col'.
  Proof.
    intros F. revert col. induction F as [|c l [-> | ->] F IH]; intros col; [exists col; reflexivity|apply IH|apply IH].
  Qed.
  Lemma class_exists line : (allow_code = false \/ forall c, In c line -> white c = true -> c = 9%N \/ c = 32%N) ->
    exists cl, is_class is_bytes tab_width allow_code code_indent conv line cl /\ (allow_code = false -> forall t, cl <> Code t).
  Proof.
    intros H. destruct (tokens_exist line) as [[|[l w] toks] T].
    - exists Blank. split; [constructor; exact T|discriminate].
    - destruct H as [EA | H].
      + eexists. split; [apply (IsText _ _ _ _ _ _ _ _ _ T); unfold not_indented; congruence|discriminate].
      + pose proof (tokens_leading _ _ _ T H) as F. pose proof (Forall_inv F) as FL. cbn [fst] in FL. destruct (column_total l 0 FL) as [col EC].
        destruct allow_code eqn:EA.
        * destruct (le_lt_dec code_indent col).
          -- eexists. split; [apply (IsCode _ _ _ _ _ _ _ _ _ T); [split; [reflexivity|exists col; auto]|exact F]|discriminate].
          -- eexists. split; [apply (IsText _ _ _ _ _ _ _ _ _ T); unfold not_indented; intros _; exists col; auto|discriminate].
        * eexists. split; [apply (IsText _ _ _ _ _ _ _ _ _ T); unfold not_indented; congruence|discriminate].
  Qed.
  Lemma lines_exist s : exists lines, lines <> [] /\ join [10%N] lines = s /\ Forall (fun l => ~ In 10%N l) lines.
  Proof.
    induction s as [|c s (lines & NE & J & F)].
    - exists [[]]. split; [discriminate|]. split; [reflexivity|]. repeat constructor. intros [].
    - destruct lines as [|l lines]; [contradiction|]. destruct (N.eqb_spec c 10) as [-> |NC].
      + exists ([] :: l :: lines). split; [discriminate|]. split; [cbn [join app]; f_equal; exact J|]. constructor; [intros []|exact F].
      + inversion F as [|? ? F1 F2]; subst. exists ((c :: l) :: lines). split; [discriminate|]. split; [destruct lines; reflexivity|].
        constructor; [|exact F2]. intros [-> | I]; [apply NC; reflexivity | contradiction].
  Qed.
  Lemma join_in lines l c : In l lines -> In c l -> In c (join [10%N] lines).
  Proof.
    induction lines as [|x lines IH]; intros I C; [destruct I|]. destruct lines as [|y lines]; destruct I as [-> |I]; cbn [join]; auto.
    - destruct I.
    - apply in_or_app. left. exact C.
    - apply in_or_app. right. right. apply IH; assumption.
  Qed.
  Lemma classes_exist lines : (allow_code = false \/ forall c, In c (join [10%N] lines) -> white c = true -> c = 9%N \/ c = 10%N \/ c = 32%N) ->
    Forall (fun l => ~ In 10%N l) lines ->
    exists classes, Forall2 (is_class is_bytes tab_width allow_code code_indent conv) lines classes /\ (allow_code = false -> Forall (fun cl => forall t, cl <> Code t) classes).
  Proof.
    intros H F. assert (G : Forall (fun l => allow_code = false \/ forall c, In c l -> white c = true -> c = 9%N \/ c = 32%N) lines).
    { rewrite Forall_forall in F |- *. intros l I. destruct H as [H | H]; [left; exact H | right]. intros c IC Wc.
      destruct (H c (join_in _ _ _ I IC) Wc) as [-> | [-> | ->]]; auto. exfalso. apply (F l I IC). }
    clear H F. induction G as [|l lines Hl G (classes & F2 & N)]; [exists []; split; constructor|].
    destruct (class_exists l Hl) as (cl & C & NC). exists (cl :: classes). split; [constructor; assumption|]. intros EA. constructor; auto.
  Qed.
End Ink.
