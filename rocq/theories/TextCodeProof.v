(** Proofs about split_text_with_code: what a whole line does. *)
From Verif Require Import PyStrProof TextCodeModel TextCodeSpec.

Lemma rbind_ok {A B} (r : result A) (f : A -> B) : rbind r (fun x => Ok (f x)) = rmap f r.
Proof. destruct r; reflexivity. Qed.
Lemma rbind_assoc {A B C} (r : result A) (f : A -> result B) (g : B -> result C) :
  rbind (rbind r f) g = rbind r (fun x => rbind (f x) g).
Proof. destruct r; reflexivity. Qed.
Lemma rbind_rmap {A B C} (r : result A) (f : A -> B) (g : B -> result C) : rbind (rmap f r) g = rbind r (fun x => g (f x)).
Proof. destruct r; reflexivity. Qed.
Lemma rmap_rbind {A B C} (r : result A) (f : A -> result B) (g : B -> C) : rmap g (rbind r f) = rbind r (fun x => rmap g (f x)).
Proof. destruct r; reflexivity. Qed.
Lemma rbind_id {A} (r : result A) : rbind r Ok = r.
Proof. destruct r; reflexivity. Qed.
Lemma rbind_ext {A B} (r : result A) (f g : A -> result B) : (forall x, f x = g x) -> rbind r f = rbind r g.
Proof. intros H. destruct r; cbn; [apply H | reflexivity]. Qed.

Ltac crec := cbv [paragraph_break line_break emit set_state set_prev set_code is_code is_text]; cbn [c_words c_code c_prev c_col c_state].

Section P.
  Context (is_bytes : bool) (tab_width : nat) (allow_code : bool) (code_indent : nat) (conv : bool).
  Notation state := (state tab_width allow_code code_indent conv).
  Notation write := (write is_bytes tab_width allow_code code_indent conv).
  Notation write_all := (write_all is_bytes tab_width allow_code code_indent conv).
  Notation close := (close tab_width allow_code code_indent conv).
  Notation white := (white is_bytes).
  Notation nl := newline_string.

  Lemma white_nl : white 10%N = true.
  Proof. destruct is_bytes; reflexivity. Qed.
  Lemma write_all_app w s t : write_all w (s ++ t) = rbind (write_all w s) (fun w => write_all w t).
  Proof.
    revert w. induction s as [|c s IH]; intros w; [reflexivity|]. cbn [app TextCodeModel.write_all]. rewrite rbind_assoc. apply rbind_ext. intros w'. apply IH.
  Qed.
  Lemma write_blank l0 s l : blank_text is_bytes l -> ~ In 10%N l -> write_all (l0, [], s) l = Ok (l0 ++ l, [], s).
  Proof.
    intros B. revert l0. induction B as [|c l Hc B IH]; intros l0 N; [rewrite app_nil_r; reflexivity|].
    cbn [TextCodeModel.write_all TextCodeModel.write]. rewrite Hc. cbn [negb].
    assert (E : (c =? 10)%N = false) by (apply N.eqb_neq; intros ->; apply N; left; reflexivity).
    rewrite E. cbn [rbind]. rewrite IH by (intros I; apply N; right; exact I). rewrite <- app_assoc. reflexivity.
  Qed.
  Lemma write_nonwhite l0 w0 s w : Forall (fun c => white c = false) w -> write_all (l0, w0, s) w = Ok (l0, w0 ++ w, s).
  Proof.
    intros B. revert w0. induction B as [|c l Hc B IH]; intros w0; [rewrite app_nil_r; reflexivity|].
    cbn [TextCodeModel.write_all TextCodeModel.write]. rewrite Hc. cbn [negb rbind]. rewrite IH, <- app_assoc. reflexivity.
  Qed.
  (** the calls of self.state for the words of a line *)
  Fixpoint run (s : cws) (toks : list (str * str)) : result cws :=
    match toks with [] => Ok s | t :: toks => rbind (state s (fst t) (snd t)) (fun s => run s toks) end.
  Lemma state_newline s l : state s l nl = state s [] nl.
  Proof.
    unfold TextCodeModel.state. destruct (c_state s); reflexivity.
  Qed.
  Lemma write_next l w s c rest : w <> [] -> white c = true -> c <> 10%N ->
    write_all (l, w, s) (c :: rest) = rbind (state s l w) (fun s => write_all ([], [], s) (c :: rest)).
  Proof.
    intros W Hc N. cbn [TextCodeModel.write_all TextCodeModel.write]. rewrite Hc. cbn [negb].
    assert (E : (c =? 10)%N = false) by (apply N.eqb_neq, N). rewrite E.
    destruct w as [|x w]; [contradiction|]. rewrite rbind_rmap. apply rbind_ext. intros s'.
    reflexivity.
  Qed.
  Lemma feed line toks : tokens_of is_bytes line toks -> forall s, ~ In 10%N line ->
    write_all ([], [], s) (line ++ [10%N]) = rbind (run s toks) (fun s => rmap (fun s => ([], [], s)) (state s [] nl)).
  Proof.
    intros T. induction T as [l B | l w rest toks B [W1 W2] R T IH]; intros s N.
    - rewrite write_all_app, write_blank by assumption. cbn [rbind app run TextCodeModel.write_all TextCodeModel.write]. rewrite white_nl. cbn [negb N.eqb Pos.eqb].
      change [10%N] with nl. rewrite (state_newline s l), rbind_rmap, rbind_ok. reflexivity.
    - rewrite <- !app_assoc, write_all_app, write_blank by (try assumption; intros I; apply N; apply in_or_app; left; exact I).
      cbn [rbind app]. rewrite write_all_app, write_nonwhite by assumption. cbn [rbind app].
      assert (Nr : ~ In 10%N rest) by (intros I; apply N; apply in_or_app; right; apply in_or_app; right; exact I).
      cbn [run fst snd]. rewrite rbind_assoc.
      destruct rest as [|c rest].
      + assert (E : toks = []).
        { inversion T; [reflexivity|]. match goal with H : _ ++ _ ++ _ = [] |- _ => apply app_eq_nil in H; destruct H as [_ H]; apply app_eq_nil in H; destruct H as [H _] end.
          match goal with H : word_text _ _ |- _ => destruct H; contradiction end. }
        subst toks. cbn [app TextCodeModel.write_all TextCodeModel.write]. rewrite white_nl. cbn [negb N.eqb Pos.eqb].
        destruct w as [|x w]; [contradiction|]. rewrite rbind_rmap, rbind_assoc. apply rbind_ext. intros s'. cbn [run rbind].
        apply rbind_ok.
      + cbn [app]. rewrite write_next; [|assumption|apply (R c rest eq_refl)|intros ->; apply Nr; left; reflexivity].
        apply rbind_ext. intros s'. rewrite (app_comm_cons rest [10%N] c). apply IH. exact Nr.
  Qed.
  Lemma feed_last line toks : tokens_of is_bytes line toks -> forall s, ~ In 10%N line ->
    rbind (write_all ([], [], s) line) close = run s toks.
  Proof.
    intros T. induction T as [l B | l w rest toks B [W1 W2] R T IH]; intros s N.
    - rewrite write_blank by assumption. reflexivity.
    - rewrite write_all_app, write_blank by (try assumption; intros I; apply N; apply in_or_app; left; exact I).
      cbn [rbind app]. rewrite write_all_app, write_nonwhite by assumption. cbn [rbind app].
      assert (Nr : ~ In 10%N rest) by (intros I; apply N; apply in_or_app; right; apply in_or_app; right; exact I).
      cbn [run fst snd].
      destruct rest as [|c rest].
      + assert (E : toks = []).
        { inversion T; [reflexivity|]. match goal with H : _ ++ _ ++ _ = [] |- _ => apply app_eq_nil in H; destruct H as [_ H]; apply app_eq_nil in H; destruct H as [H _] end.
          match goal with H : word_text _ _ |- _ => destruct H; contradiction end. }
        subst toks. cbn [app TextCodeModel.write_all TextCodeModel.close run rbind].
        destruct w as [|x w]; [contradiction|]. destruct (state s l (x :: w)); reflexivity.
      + rewrite write_next; [|assumption|apply (R c rest eq_refl)|intros ->; apply Nr; left; reflexivity].
        rewrite rbind_assoc. apply rbind_ext. intros s'. apply IH. exact Nr.
  Qed.

  (** the effect of a line of a class, at the start of a line *)
  Definition text_line (s : cws) (pre ws : list str) : cws := Cws (c_words s ++ pre ++ ws) (c_code s) (Some Text_paragraph) (c_col s) In_text_line.
  Lemma word_not_newline w : word_text is_bytes w -> is_newline w = false.
  Proof.
    intros [W1 W2]. unfold is_newline. destruct (str_eqb w nl) eqn:E; [|reflexivity].
    apply str_eqb_eq in E. subst. inversion W2 as [|? ? H]. rewrite white_nl in H. discriminate.
  Qed.
  Lemma tokens_words line toks : tokens_of is_bytes line toks -> Forall (fun t => word_text is_bytes (snd t)) toks.
  Proof. induction 1; constructor; auto. Qed.
  Lemma run_text toks s : Forall (fun t => word_text is_bytes (snd t)) toks -> c_state s = In_text_line ->
    run s toks = Ok (Cws (c_words s ++ map snd toks) (c_code s) (c_prev s) (c_col s) In_text_line).
  Proof.
    intros F. revert s. induction F as [|[l w] toks W F IH]; intros s E.
    - cbn [run map]. rewrite app_nil_r. destruct s; cbn in *; subst; reflexivity.
    - cbn [run fst snd]. unfold TextCodeModel.state. rewrite E. unfold state_in_text_line. cbn [snd] in W. rewrite (word_not_newline w W). cbn [rbind].
      rewrite IH by exact E. cbn [emit c_words c_code c_prev c_col map snd]. rewrite <- app_assoc. reflexivity.
  Qed.
  Lemma column_leading l col : 0 < tab_width -> leading_column tab_width l col = match column tab_width l col with Some c => Ok c | None => Err RuntimeError end.
  Proof.
    intros P. revert col. induction l as [|c l IH]; intros col; [reflexivity|]. cbn [leading_column column].
    destruct (c =? 9)%N.
    - destruct (Nat.eqb_spec tab_width 0); [lia|]. rewrite IH.
      replace (col + tab_width - col mod tab_width) with (S (col / tab_width) * tab_width); [reflexivity|].
      pose proof (Nat.div_mod col tab_width ltac:(lia)). cbn [Nat.mul]. nia.
    - destruct (c =? 32)%N; [|reflexivity]. rewrite IH. replace (col + 1) with (S col) by lia. reflexivity.
  Qed.
  Hypothesis tab_pos : allow_code = true -> 0 < tab_width.

  Definition pre_text (s : cws) : list str :=
    match c_state s, c_prev s with
    | Paragraph_start, Some _ => [paragraph_string]
    | Line_start, Some Code_paragraph => [paragraph_string]
    | _, _ => []
    end.
  Definition at_line (s : cws) : Prop := c_state s = Paragraph_start \/ c_state s = Line_start.
  Lemma run_text_line line l w toks s : tokens_of is_bytes line ((l, w) :: toks) -> not_indented tab_width allow_code code_indent l -> at_line s ->
    run s ((l, w) :: toks) = Ok (text_line s (pre_text s) (map snd ((l, w) :: toks))).
  Proof.
    intros T NI A. pose proof (tokens_words _ _ T) as F. inversion F as [|? ? W F']; subst. cbn [snd] in W. cbn [run fst snd].
    assert (L : forall s', state_line_start tab_width allow_code code_indent conv s' l w = Ok (start_text_line s' l w)).
    { intros s'. unfold state_line_start. rewrite (word_not_newline w W). destruct allow_code eqn:EA; [|reflexivity].
      destruct (NI eq_refl) as (col & C1 & C2). rewrite column_leading by (apply tab_pos; reflexivity). rewrite C1. cbn [rbind].
      destruct (Nat.leb_spec code_indent col); [lia|reflexivity]. }
    assert (S : state s l w = Ok (text_line s (pre_text s) [w])).
    { unfold TextCodeModel.state, text_line, pre_text. destruct A as [A | A]; rewrite A.
      - unfold state_paragraph_start. rewrite (word_not_newline w W). rewrite L. f_equal.
        unfold start_text_line, state_text_line_start, state_in_text_line. rewrite (word_not_newline w W).
        destruct s as [WW cc p col st]; cbn in A; subst st. destruct p as [[|]|]; crec; rewrite <- ?app_assoc; reflexivity.
      - rewrite L. f_equal.
        unfold start_text_line, state_text_line_start, state_in_text_line. rewrite (word_not_newline w W).
        destruct s as [WW cc p col st]; cbn in A; subst st. destruct p as [[|]|]; crec; rewrite <- ?app_assoc; reflexivity. }
    rewrite S. cbn [rbind]. rewrite run_text by (try exact F'; reflexivity). unfold text_line. cbn [c_words c_code c_prev c_col map snd].
    rewrite <- !app_assoc. reflexivity.
  Qed.

  Lemma code_leading_spec l col : 0 < tab_width -> Forall (fun c => c = 9%N \/ c = 32%N) l ->
    exists pieces col', code_leading tab_width conv l col = Ok (pieces, col') /\
      concat pieces = (if conv then expand tab_width l col else l) /\ column tab_width l col = Some col'.
  Proof.
    intros P F. revert col. induction F as [|c l Hc F IH]; intros col.
    - exists [], col. destruct conv; repeat split.
    - destruct Hc as [-> | ->]; cbn [code_leading column expand N.eqb Pos.eqb].
      + destruct (Nat.eqb_spec tab_width 0); [lia|].
        assert (D : tab_width - col mod tab_width = S (col / tab_width) * tab_width - col).
        { pose proof (Nat.div_mod col tab_width ltac:(lia)). pose proof (Nat.mod_upper_bound col tab_width ltac:(lia)). cbn [Nat.mul]. nia. }
        assert (D' : col + (tab_width - col mod tab_width) = S (col / tab_width) * tab_width).
        { pose proof (Nat.div_mod col tab_width ltac:(lia)). pose proof (Nat.mod_upper_bound col tab_width ltac:(lia)). cbn [Nat.mul]. nia. }
        rewrite D'. destruct (IH (S (col / tab_width) * tab_width)) as (p & c' & E1 & E2 & E3). rewrite E1. cbn [rmap].
        eexists _, c'. split; [reflexivity|]. split; [|exact E3]. cbn [concat]. rewrite E2, D. destruct conv; reflexivity.
      + replace (col + 1) with (S col) by lia. destruct (IH (S col)) as (p & c' & E1 & E2 & E3). rewrite E1. cbn [rmap].
        eexists _, c'. split; [reflexivity|]. split; [|exact E3]. cbn [concat]. rewrite E2. destruct conv; reflexivity.
  Qed.
  Lemma expand_app a b col : forall col', column tab_width a col = Some col' -> expand tab_width (a ++ b) col = expand tab_width a col ++ expand tab_width b col'.
  Proof.
    revert col. induction a as [|c a IH]; intros col col' E; cbn [column] in E; [injection E as <-; reflexivity|].
    cbn [app expand]. destruct (c =? 9)%N; [rewrite (IH _ _ E), app_assoc; reflexivity|].
    destruct (c =? 32)%N; [|discriminate]. rewrite (IH _ _ E). reflexivity.
  Qed.
  Lemma expand_word w rest col : word_text is_bytes w -> expand tab_width (w ++ rest) col = w ++ expand tab_width rest (col + length w).
  Proof.
    intros [_ W]. revert col. induction W as [|c w Hc W IH]; intros col; [cbn; rewrite Nat.add_0_r; reflexivity|].
    cbn [app expand length]. assert (E : (c =? 9)%N = false) by (apply N.eqb_neq; intros ->; destruct is_bytes; discriminate Hc).
    rewrite E, IH. replace (col + S (length w)) with (S col + length w) by lia. reflexivity.
  Qed.
  Lemma run_code toks s : 0 < tab_width -> Forall (fun t => word_text is_bytes (snd t)) toks ->
    Forall (fun t => Forall (fun c => c = 9%N \/ c = 32%N) (fst t)) toks -> c_state s = In_code_line ->
    exists code col, run s toks = Ok (Cws (c_words s) (c_code s ++ code) (c_prev s) col In_code_line) /\
      concat code = (if conv then expand tab_width (joined toks) (c_col s) else joined toks).
  Proof.
    intros P F1 F2. revert s F2. induction F1 as [|[l w] toks W F IH]; intros s F2 E.
    - exists [], (c_col s). cbn [run]. rewrite app_nil_r. split; [destruct s; cbn in *; subst; reflexivity|]. destruct conv; reflexivity.
    - inversion F2 as [|? ? L F2']; subst. cbn [fst snd] in *. destruct (code_leading_spec l (c_col s) P L) as (p & c' & E1 & E2 & E3).
      cbn [run fst snd]. unfold TextCodeModel.state. rewrite E. unfold state_in_code_line. rewrite (word_not_newline w W), E1. cbn [rmap rbind].
      destruct (IH (Cws (c_words s) (c_code s ++ p ++ [w]) (c_prev s) (c' + length w) (c_state s)) F2' E) as (code & col & R & C).
      rewrite R. cbn [c_words c_code c_prev c_col] in *. exists (p ++ w :: code), col. split.
      { rewrite <- !app_assoc. reflexivity. }
      rewrite concat_app, E2. cbn [concat joined flat_map fst snd]. fold (joined toks). rewrite C. destruct conv.
      + rewrite <- app_assoc, (expand_app _ _ _ _ E3), (expand_word _ _ _ W). reflexivity.
      + rewrite <- app_assoc. reflexivity.
  Qed.
  (** what is emitted before a line of code *)
  Definition pre_code (s : cws) : list str :=
    match c_state s, c_prev s with
    | Paragraph_start, Some _ => paragraph_string :: map (fun _ => nl) (c_code s)
    | Line_start, Some Text_paragraph => [paragraph_string]
    | _, _ => map (fun _ => nl) (c_code s)
    end.
  Definition code_line (s : cws) (t : str) (code : list str) : Prop := concat code = t.
  Lemma fold_line_break {A} (l : list A) s : fold_left (fun c _ => line_break c) l s = Cws (c_words s ++ map (fun _ => nl) l) (c_code s) (c_prev s) (c_col s) (c_state s).
  Proof.
    revert s. induction l as [|x l IH]; intros s; cbn [fold_left map]; [rewrite app_nil_r; destruct s; reflexivity|].
    rewrite IH. unfold line_break, emit. cbn [c_words c_code c_prev c_col c_state]. rewrite <- app_assoc. reflexivity.
  Qed.
  Definition asserts (s : cws) : Prop := c_state s = Line_start -> c_prev s = Some Text_paragraph -> c_code s = [].
  Lemma run_code_line line l w toks s : tokens_of is_bytes line ((l, w) :: toks) -> indented tab_width allow_code code_indent l ->
    Forall (fun t => Forall (fun c => c = 9%N \/ c = 32%N) (fst t)) ((l, w) :: toks) -> at_line s -> asserts s ->
    exists code col, run s ((l, w) :: toks) = Ok (Cws (c_words s ++ pre_code s) code (Some Code_paragraph) col In_code_line) /\
      concat code = (if conv then expand tab_width (joined ((l, w) :: toks)) 0 else joined ((l, w) :: toks)).
  Proof.
    intros T (EA & col0 & C1 & C2) F2 A AS. pose proof (tokens_words _ _ T) as F. inversion F as [|? ? W F']; subst. cbn [snd] in W.
    pose proof (tab_pos EA) as P.
    destruct (run_code ((l, w) :: toks) (Cws (c_words s ++ pre_code s) [] (Some Code_paragraph) 0 In_code_line) P F F2 eq_refl) as (code & col & R & C).
    cbn [c_words c_code c_prev c_col app] in R, C. exists code, col. split; [|exact C]. rewrite <- R. cbn [run fst snd]. f_equal.
    assert (L : forall s', state_line_start tab_width allow_code code_indent conv s' l w =
      if is_text (c_prev s') then match c_code s' with [] => state_code_line_start tab_width conv (paragraph_break s') l w | _ => Err AssertionError end
      else state_code_line_start tab_width conv (set_code (fold_left (fun c _ => line_break c) (c_code s') s') []) l w).
    { intros s'. unfold state_line_start. rewrite (word_not_newline w W), EA. rewrite column_leading, C1 by exact P. cbn [rbind].
      destruct (Nat.leb_spec code_indent col0); [reflexivity|lia]. }
    unfold TextCodeModel.state. cbn [c_state]. destruct A as [A | A]; rewrite A.
    - unfold state_paragraph_start. rewrite (word_not_newline w W), L. unfold pre_code. rewrite A.
      destruct s as [WW cc p col1 st]; cbn in A; subst st. destruct p as [[|]|]; crec; rewrite fold_line_break; unfold state_code_line_start; crec; rewrite <- ?app_assoc; reflexivity.
    - rewrite L. unfold pre_code. rewrite A. unfold asserts in AS.
      destruct s as [WW cc p col1 st]; cbn in A; subst st. cbn in AS. destruct p as [[|]|]; crec.
      2: { rewrite (AS eq_refl eq_refl). reflexivity. }
      all: rewrite fold_line_break; reflexivity.
  Qed.

  (** whole lines *)
  Definition step (s : cws) (cl : class) (s' : cws) : Prop :=
    match cl with
    | Blank => s' = match c_state s, c_prev s with
                    | Line_start, Some Code_paragraph => set_code s (c_code s ++ [nl])
                    | _, _ => set_state s Paragraph_start
                    end
    | Text ws => s' = set_state (text_line s (pre_text s) ws) Line_start
    | Code t => exists col, s' = Cws (c_words s ++ pre_code s ++ [t]) [nl] (Some Code_paragraph) col Line_start
    end.
  Notation is_class := (is_class is_bytes tab_width allow_code code_indent conv).
  Lemma line_step line cl s : is_class line cl -> ~ In 10%N line -> at_line s -> (forall t, cl = Code t -> asserts s) ->
    exists s', write_all ([], [], s) (line ++ [10%N]) = Ok ([], [], s') /\ step s cl s'.
  Proof.
    intros C N A AS. destruct C as [line T | line l w toks T NI | line l w toks T I F].
    - rewrite (feed _ _ T) by exact N. cbn [run rbind step]. unfold TextCodeModel.state.
      destruct s as [W c p col st]. cbn [c_state c_prev set_state set_code c_code c_words c_col] in *. destruct A as [A | A]; cbn in A; subst st.
      + eexists; split; reflexivity.
      + unfold state_line_start, line_start_newline. cbn [c_prev]. destruct p as [[|]|]; eexists; split; reflexivity.
    - rewrite (feed _ _ T) by exact N. rewrite (run_text_line _ _ _ _ s T NI A). cbn [rbind]. eexists; split; [reflexivity|]. reflexivity.
    - rewrite (feed _ _ T) by exact N. destruct (run_code_line _ _ _ _ s T I F A (AS _ eq_refl)) as (code & col & R & CC). rewrite R. cbn [rbind].
      eexists; split; [reflexivity|]. cbn [step]. exists col. unfold line_start_newline. crec. rewrite CC, <- app_assoc. reflexivity.
  Qed.
  Lemma last_step line cl s : is_class line cl -> ~ In 10%N line -> at_line s -> (forall t, cl <> Code t) ->
    exists s' s'', rbind (write_all ([], [], s) line) close = Ok s' /\ step s cl s'' /\ c_words s' = c_words s''.
  Proof.
    intros C N A NC. destruct C as [line T | line l w toks T NI | line l w toks T I F].
    - rewrite (feed_last _ _ T) by exact N. cbn [run]. eexists _, _; split; [reflexivity|]. split; [reflexivity|].
      destruct (c_state s), (c_prev s) as [[|]|]; reflexivity.
    - rewrite (feed_last _ _ T) by exact N. rewrite (run_text_line _ _ _ _ s T NI A). eexists _, _; split; [reflexivity|]. split; reflexivity.
    - exfalso. apply (NC _ eq_refl).
  Qed.
End P.
