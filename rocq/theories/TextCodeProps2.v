(** C78, exactly: what split_text_with_code gives for any sequence of lines. *)
From Verif Require Import PyStrProof TextCodeModel TextCodeSpec TextCodeProof TextCodeProof2 TextCodeProof3 TextCodeProps.

(** What comes before: nothing, text (and a blank line after it or not), code. *)
Inductive after := Start | AfterText (blank : bool) | AfterCode.
(** The words for the lines ls.  [pending] is the number of newlines after the last code block, up to the next line that is
    not blank: they come before the next line of code, wherever it is - as they should if it is in the same
    block, too many otherwise, and AssertionError if no blank line separates it from text.  A last line of
    code without newline is lost. *)
Fixpoint emitted (a : after) (pending : nat) (ls : list class) : result (list str) :=
  match ls with
  | [] => Ok []
  | Blank :: ls => match a with Start => emitted Start pending ls | AfterText _ => emitted (AfterText true) pending ls | AfterCode => emitted AfterCode (S pending) ls end
  | Text ws :: ls =>
      let sep := match a with Start | AfterText false => [] | AfterText true | AfterCode => [[10%N; 10%N]] end in
      rmap (app (sep ++ ws)) (emitted (AfterText false) pending ls)
  | Code t :: ls =>
      rbind (match a with
             | AfterText false => match pending with 0 => Ok [[10%N; 10%N]] | S _ => Err AssertionError end
             | AfterText true => Ok ([10%N; 10%N] :: repeat [10%N] pending)
             | Start | AfterCode => Ok (repeat [10%N] pending)
             end) (fun sep =>
      match ls with
      | [] => Ok sep
      | _ => rmap (app (sep ++ [t])) (emitted AfterCode 1 ls)
      end)
  end.

Section Exact.
  Context (is_bytes : bool) (tab_width : nat) (allow_code : bool) (code_indent : nat) (conv : bool).
  Notation write_all := (write_all is_bytes tab_width allow_code code_indent conv).
  Notation close := (close tab_width allow_code code_indent conv).
  Notation is_class := (is_class is_bytes tab_width allow_code code_indent conv).
  Hypothesis tab_pos : allow_code = true -> 0 < tab_width.
  Definition here (s : cws) (a : after) (pending : nat) : Prop :=
    c_code s = repeat nl pending /\
    match a with
    | Start => c_state s = Paragraph_start /\ c_prev s = None
    | AfterText true => c_state s = Paragraph_start /\ c_prev s = Some Text_paragraph
    | AfterText false => c_state s = Line_start /\ c_prev s = Some Text_paragraph
    | AfterCode => c_state s = Line_start /\ c_prev s = Some Code_paragraph
    end.
  Lemma here_at s a p : here s a p -> at_line s.
  Proof. intros (_ & H). unfold at_line. destruct a as [|[|]|]; destruct H as (-> & _); auto. Qed.
  Lemma code_asserts line l w toks s p : tokens_of is_bytes line ((l, w) :: toks) -> indented tab_width allow_code code_indent l -> here s (AfterText false) (S p) ->
    run tab_width allow_code code_indent conv s ((l, w) :: toks) = Err AssertionError.
  Proof.
    intros T (EA & col0 & C1 & C2) (HC & HS & HP). pose proof (tokens_words _ _ _ T) as F. pose proof (Forall_inv F) as W. cbn [snd] in W. pose proof (tab_pos EA) as P.
    cbn [run fst snd]. unfold TextCodeModel.state. rewrite HS. unfold state_line_start. rewrite (word_not_newline _ w W), EA. rewrite column_leading, C1 by exact P. cbn [rbind].
    destruct (Nat.leb_spec code_indent col0); [|lia]. rewrite HP, HC. reflexivity.
  Qed.
  Lemma run_exact lines classes : Forall2 is_class lines classes -> Forall (fun l => ~ In 10%N l) lines -> lines <> [] ->
    forall s a p, here s a p ->
    match emitted a p classes with
    | Ok w => exists s', rbind (write_all ([], [], s) (join [10%N] lines)) close = Ok s' /\ c_words s' = c_words s ++ w
    | Err e => rbind (write_all ([], [], s) (join [10%N] lines)) close = Err e
    end.
  Proof.
    intros F. induction F as [|line cl lines classes C F IH]; intros N NE s a p H; [contradiction|].
    inversion N as [|? ? N1 N2]; subst. pose proof (here_at _ _ _ H) as A.
    assert (AS : (a = AfterText false -> p = 0) -> asserts s).
    { intros Z S P. destruct H as (HC & HS). rewrite HC. destruct a as [|[|]|]; destruct HS as (HS & HP); try congruence. rewrite Z by reflexivity. reflexivity. }
    assert (PC : pre_code s = match a with AfterText true => [10%N; 10%N] :: repeat [10%N] p | AfterText false => [[10%N; 10%N]] | _ => repeat [10%N] p end).
    { destruct H as (HC & HS). unfold pre_code. rewrite HC, map_const, repeat_length. destruct a as [|[|]|]; destruct HS as (-> & ->); reflexivity. }
    destruct lines as [|line2 lines].
    - inversion F; subst. cbn [join]. destruct C as [line T | line l w toks T NI | line l w toks T I G].
      + destruct (last_step is_bytes tab_width allow_code code_indent conv tab_pos line Blank s (IsBlank _ _ _ _ _ _ T) N1 A ltac:(discriminate)) as (s' & s'' & E1 & E2 & E3).
        assert (W : c_words s'' = c_words s). { cbn [step] in E2. subst s''. destruct (c_state s), (c_prev s) as [[|]|]; reflexivity. }
        cbn [emitted]. destruct a as [|[|]|]; cbn [emitted]; exists s'; (split; [exact E1|rewrite E3, W, app_nil_r; reflexivity]).
      + destruct (last_step is_bytes tab_width allow_code code_indent conv tab_pos line _ s (IsText _ _ _ _ _ _ _ _ _ T NI) N1 A ltac:(discriminate)) as (s' & s'' & E1 & E2 & E3).
        cbn [emitted rmap]. exists s'. split; [exact E1|]. rewrite E3. cbn [step] in E2. subst s''. unfold text_line, set_state. cbn [c_words]. rewrite app_nil_r. unfold pre_text.
        destruct H as (_ & H). destruct a as [|[|]|]; destruct H as (-> & ->); rewrite <- ?app_assoc; reflexivity.
      + cbn [emitted]. destruct (match a with AfterText false => p | _ => 0 end) eqn:Z.
        * destruct (run_code_line is_bytes tab_width allow_code code_indent conv tab_pos _ _ _ _ s T I G A) as (code & col & R & CC).
          { apply AS. intros ->. exact Z. }
          rewrite (feed_last _ _ _ _ _ _ _ T) by exact N1. rewrite R.
          assert (SEP : match a with AfterText false => match p with 0 => Ok [[10%N; 10%N]] | S _ => Err AssertionError end | AfterText true => Ok ([10%N; 10%N] :: repeat [10%N] p) | _ => Ok (repeat [10%N] p) end = Ok (pre_code s)).
          { rewrite PC. destruct a as [|[|]|]; try reflexivity. rewrite Z. reflexivity. }
          rewrite SEP. cbn [rbind]. eexists. split; reflexivity.
        * destruct a as [|[|]|]; try discriminate. subst p. cbn [rbind]. rewrite (feed_last _ _ _ _ _ _ _ T) by exact N1. apply (code_asserts _ _ _ _ _ _ T I H).
    - replace (join [10%N] (line :: line2 :: lines)) with ((line ++ [10%N]) ++ join [10%N] (line2 :: lines)) by (rewrite <- app_assoc; reflexivity).
      rewrite write_all_app.
      assert (STEP : forall s' a' p' w, write_all ([], [], s) (line ++ [10%N]) = Ok ([], [], s') -> here s' a' p' -> c_words s' = c_words s ++ w ->
        match rmap (app w) (emitted a' p' classes) with
        | Ok w => exists s', rbind (rbind (write_all ([], [], s) (line ++ [10%N])) (fun w => write_all w (join [10%N] (line2 :: lines)))) close = Ok s' /\ c_words s' = c_words s ++ w
        | Err e => rbind (rbind (write_all ([], [], s) (line ++ [10%N])) (fun w => write_all w (join [10%N] (line2 :: lines)))) close = Err e
        end).
      { intros s' a' p' w E H' W. rewrite E. cbn [rbind]. specialize (IH N2 ltac:(discriminate) s' a' p' H'). destruct (emitted a' p' classes) as [w'|e]; cbn [rmap]; [|exact IH].
        destruct IH as (sf & E' & W'). exists sf. split; [exact E'|]. rewrite W', W, app_assoc. reflexivity. }
      destruct cl as [|ws|t].
      + destruct (line_step is_bytes tab_width allow_code code_indent conv tab_pos line Blank s C N1 A) as (s' & E1 & E2); [discriminate|].
        cbn [step] in E2. cbn [emitted]. destruct H as (HC & HS).
        assert (GO : forall a' p', here s' a' p' -> c_words s' = c_words s ->
          match emitted a' p' classes with
          | Ok w => exists s', rbind (rbind (write_all ([], [], s) (line ++ [10%N])) (fun w => write_all w (join [10%N] (line2 :: lines)))) close = Ok s' /\ c_words s' = c_words s ++ w
          | Err e => rbind (rbind (write_all ([], [], s) (line ++ [10%N])) (fun w => write_all w (join [10%N] (line2 :: lines)))) close = Err e
          end).
        { intros a' p' H' W. specialize (STEP s' a' p' [] E1 H'). rewrite app_nil_r in STEP. specialize (STEP W). destruct (emitted a' p' classes); exact STEP. }
        destruct a as [|[|]|]; destruct HS as (HS & HP); rewrite HS in E2; rewrite ?HP in E2; subst s'; apply GO; try reflexivity; unfold here, set_state, set_code; cbn [c_code c_state c_prev]; auto.
        rewrite HC. split; [|auto]. symmetry. apply (repeat_cons p nl).
      + destruct (line_step is_bytes tab_width allow_code code_indent conv tab_pos line _ s C N1 A) as (s' & E1 & E2); [discriminate|].
        cbn [step] in E2. cbn [emitted]. refine (STEP s' (AfterText false) p _ E1 _ _).
        * subst s'. destruct H as (HC & HS). unfold here, set_state, text_line. cbn [c_code c_state c_prev]. auto.
        * subst s'. unfold set_state, text_line, pre_text. cbn [c_words]. destruct H as (_ & H). destruct a as [|[|]|]; destruct H as (-> & ->); rewrite <- ?app_assoc; reflexivity.
      + cbn [emitted]. destruct (match a with AfterText false => p | _ => 0 end) eqn:Z.
        * destruct (line_step is_bytes tab_width allow_code code_indent conv tab_pos line _ s C N1 A) as (s' & E1 & E2).
          { intros t' _. apply AS. intros ->. exact Z. }
          assert (SEP : match a with AfterText false => match p with 0 => Ok [[10%N; 10%N]] | S _ => Err AssertionError end | AfterText true => Ok ([10%N; 10%N] :: repeat [10%N] p) | _ => Ok (repeat [10%N] p) end = Ok (pre_code s)).
          { rewrite PC. destruct a as [|[|]|]; try reflexivity. rewrite Z. reflexivity. }
          rewrite SEP. cbn [rbind]. destruct classes as [|cl2 classes]; [inversion F|]. cbn [step] in E2. destruct E2 as (col & E2).
          refine (STEP s' AfterCode 1 _ E1 _ _); subst s'; [unfold here; cbn; auto|reflexivity].
        * destruct a as [|[|]|]; try discriminate. subst p. cbn [rbind]. inversion C as [| |? l w toks T I G EL]; subst.
          rewrite (feed _ _ _ _ _ _ _ T) by exact N1. rewrite (code_asserts _ _ _ _ _ _ T I H). reflexivity.
  Qed.
End Exact.

(** For every text whose lines can be classified (in particular, if all its whitespace is spaces, tabs and newlines): *)
Theorem C78_blocks_exact is_bytes tab_width code_indent conv s lines classes : 0 < tab_width ->
  lines_of s lines -> Forall2 (is_class is_bytes tab_width true code_indent conv) lines classes ->
  split_text_with_code is_bytes tab_width true code_indent conv s = rmap (fun ws => match ws with [] => [[]] | _ => ws end) (emitted Start 0 classes).
Proof.
  intros P (NE & J & N) F. subst s. unfold split_text_with_code.
  pose proof (run_exact is_bytes tab_width true code_indent conv (fun _ => P) lines classes F N NE (Cws [] [] None 0 Paragraph_start) Start 0) as R.
  specialize (R ltac:(split; [reflexivity|split; reflexivity])). destruct (emitted Start 0 classes) as [w|e]; cbn [rmap].
  - destruct R as (s' & E & W). destruct (write_all _ _ _ _ _ _ _) as [wr|e] eqn:EW; [|discriminate E]. change (rbind (Ok wr) (close tab_width true code_indent conv)) with (close tab_width true code_indent conv wr) in E. cbn [rbind]. rewrite E. cbn [rmap]. rewrite W. destruct w; reflexivity.
  - destruct (write_all _ _ _ _ _ _ _) as [wr|e'] eqn:EW; cbn [rbind] in *; [rewrite R; reflexivity|congruence].
Qed.
Print Assumptions C78_blocks_exact.
Example C78_exact_nonvacuous :
  emitted Start 0 [Code (u "a"); Blank; Text [u "b"]; Blank; Code (u "c"); Blank; Code (u "d"); Blank] =
    Ok [u "a"; [10; 10]%N; u "b"; [10; 10]%N; [10%N]; [10%N]; u "c"; [10%N]; [10%N]; u "d"] /\
  emitted Start 0 [Text [u "b"]; Code (u "c")] = Ok [u "b"; [10; 10]%N] /\
  emitted Start 0 [Code (u "a"); Text [u "b"]; Code (u "c"); Blank] = Err AssertionError /\
  split_text_with_code false 8 true 4 true (u "    a" ++ [10; 10]%N ++ u "b" ++ [10; 10]%N ++ u "    c" ++ [10; 10]%N ++ u "    d" ++ [10]%N) =
    Ok [u "    a"; [10; 10]%N; u "b"; [10; 10]%N; [10%N]; [10%N]; u "    c"; [10%N]; [10%N]; u "    d"].
Proof. repeat split; vm_compute; reflexivity. Qed.
