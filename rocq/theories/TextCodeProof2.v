(** Proofs about split_text_with_code: the sequence of lines. *)
From Verif Require Import PyStrProof TextCodeModel TextCodeSpec TextCodeProof.

Lemma some_inj {A} (a b : A) : Some a = Some b -> a = b. Proof. intros H. injection H; auto. Qed.
Definition rest (bs : list block) : list str := flat_map (fun b => [10%N; 10%N] :: block_words b) bs.
Definition code_blocks (bs : list block) : nat := length (filter is_code_block bs).
Inductive steps : cws -> list class -> cws -> Prop :=
| steps_nil s : steps s [] s
| steps_cons s cl s' ls s'' : step s cl s' -> steps s' ls s'' -> steps s (cl :: ls) s''.
Notation nl := newline_string.

Lemma group_text_nil r : code_blocks (group r) = 0 -> forall f more bs, group r <> CodeBlock f more :: bs.
Proof. intros H f more bs E. rewrite E in H. discriminate. Qed.

Definition words_of (o : cws) := c_words o.
(** words still to be emitted, from each kind of state *)
Definition todo_first (p : option kind) (bs : list block) : list str :=
  match p with None => match bs with [] => [] | b :: bs => block_words b ++ rest bs end | Some _ => rest bs end.
Definition todo_text (ls : list class) : list str :=
  match group ls with
  | Paragraph ws :: bs => if starts_with_text ls then ws ++ rest bs else rest (group ls)
  | bs => rest bs
  end.
Definition todo_code (k : nat) (ls : list class) : list str :=
  match group ls with
  | CodeBlock f more :: bs => repeat nl (k + blanks ls) ++ block_words (CodeBlock f more) ++ rest bs
  | bs => rest bs
  end.
(** text to come is in good order if there was no code yet and at most one code block follows, or none follows *)
Definition fine (c : list str) (ls : list class) : Prop :=
  (c = [] /\ code_blocks (group ls) <= 1) \/ code_blocks (group ls) = 0.

Lemma cb_blank ls : code_blocks (group (Blank :: ls)) = code_blocks (group ls). Proof. reflexivity. Qed.
Lemma cb_text ws ls : code_blocks (group (Text ws :: ls)) = code_blocks (group ls).
Proof.
  cbn [group]. destruct (group ls) as [|[ws'|f more] bs]; try reflexivity. destruct (starts_with_text ls); reflexivity.
Qed.
Lemma cb_code t ls : code_blocks (group (Code t :: ls)) = match group ls with CodeBlock _ _ :: bs => S (code_blocks bs) | bs => S (code_blocks bs) end.
Proof. cbn [group]. destruct (group ls) as [|[ws'|f more] bs]; reflexivity. Qed.
Lemma blanks_nl k ls : repeat nl (k + blanks ls) = repeat nl k ++ repeat nl (blanks ls). Proof. apply repeat_app. Qed.

Definition spec_of (s : cws) (ls : list class) : option (list str) :=
  match c_state s, c_prev s with
  | Paragraph_start, None => Some (todo_first None (group ls))
  | Paragraph_start, Some Text_paragraph => Some (todo_first (Some Text_paragraph) (group ls))
  | Line_start, Some Text_paragraph => Some (todo_text ls)
  | Line_start, Some Code_paragraph => Some (todo_code (length (c_code s)) ls)
  | _, _ => None
  end.
Definition ready (s : cws) (ls : list class) : Prop :=
  match c_state s, c_prev s with
  | Line_start, Some Code_paragraph => c_code s = repeat nl (length (c_code s)) /\ match group ls with CodeBlock _ _ :: bs => code_blocks bs = 0 | bs => code_blocks bs = 0 end
  | _, _ => fine (c_code s) ls
  end.
Lemma ready_asserts s ls t : ready s (Code t :: ls) -> asserts s.
Proof.
  intros R A P. unfold ready in R. rewrite A, P in R. destruct R as [[R _] | R]; [exact R|]. rewrite cb_code in R. destruct (group ls) as [|[]]; discriminate.
Qed.
Lemma map_const {A B} (b : B) (l : list A) : map (fun _ => b) l = repeat b (length l).
Proof. induction l; cbn; congruence. Qed.

(** one line: the words emitted and what is left *)
Lemma step_spec s cl ls s' w : spec_of s (cl :: ls) = Some w -> ready s (cl :: ls) -> step s cl s' ->
  ready s' ls /\ at_line s' /\ exists w', spec_of s' ls = Some w' /\ c_words s ++ w = c_words s' ++ w'.
Proof.
  destruct s as [W c p col st]. unfold spec_of, ready. cbn [c_state c_prev c_code c_words].
  intros S R ST. destruct cl as [|ws|t]; cbn [step] in ST.
  - (* blank *)
    destruct st; try discriminate S; destruct p as [[|]|]; try discriminate S; cbn [c_state c_prev set_state set_code c_words c_col c_code] in ST; subst s';
      cbn [c_state c_prev set_state set_code c_words c_col c_code]; apply some_inj in S; subst w.
    + split; [exact R|]. split; [left; reflexivity|]. eexists; split; reflexivity.
    + split; [exact R|]. split; [left; reflexivity|]. eexists; split; reflexivity.
    + (* code *)
      destruct R as [R1 R2]. split; [|split; [right; reflexivity|]].
      { split; [|exact R2]. rewrite app_length. cbn [length]. rewrite repeat_app, <- R1. reflexivity. }
      eexists; split; [reflexivity|]. f_equal. unfold todo_code. cbn [group blanks]. destruct (group ls) as [|[ws'|f more] bs]; try reflexivity.
      rewrite app_length. cbn [length]. replace (length c + 1 + blanks ls) with (length c + S (blanks ls)) by lia. reflexivity.
    + split; [exact R|]. split; [left; reflexivity|]. eexists; split; [reflexivity|]. f_equal.
      unfold todo_text, todo_first. cbn [group starts_with_text]. destruct (group ls) as [|[]]; reflexivity.
  - (* text *)
    subst s'. unfold text_line, pre_text, set_state. cbn [c_state c_prev c_words c_col c_code].
    assert (G : code_blocks (group ls) = code_blocks (group (Text ws :: ls))) by (symmetry; apply cb_text).
    assert (TT : rest (group (Text ws :: ls)) = paragraph_string :: ws ++ todo_text ls).
    { unfold todo_text. cbn [group]. destruct (group ls) as [|[ws'|f more] bs]; try reflexivity.
      - destruct (starts_with_text ls); unfold rest; cbn [flat_map block_words app]; rewrite <- ?app_assoc; reflexivity. }
    assert (G0 : group (Text ws :: ls) <> []).
    { cbn [group]. destruct (group ls) as [|[]]; [discriminate| |discriminate]. destruct (starts_with_text ls); discriminate. }
    assert (TG : todo_first None (group (Text ws :: ls)) = ws ++ todo_text ls).
    { destruct (group (Text ws :: ls)) as [|b bs] eqn:E; [contradiction|]. unfold rest in TT; cbn [flat_map app] in TT. injection TT as TT. exact TT. }
    assert (TX : todo_text (Text ws :: ls) = ws ++ todo_text ls).
    { unfold todo_text at 1. cbn [starts_with_text]. rewrite <- TG. cbn [group]. destruct (group ls) as [|[]]; try reflexivity. destruct (starts_with_text ls); reflexivity. }
    assert (TC : forall k, todo_code k (Text ws :: ls) = paragraph_string :: ws ++ todo_text ls).
    { intros k. rewrite <- TT. unfold todo_code. cbn [group]. destruct (group ls) as [|[]]; try reflexivity. destruct (starts_with_text ls); reflexivity. }
    destruct st; try discriminate S; destruct p as [[|]|]; try discriminate S; apply some_inj in S; subst w.
    all: split; [|split; [right; reflexivity|]; eexists; split; [reflexivity|]].
    + unfold fine. rewrite G. exact R.
    + change (todo_first (Some Text_paragraph)) with rest; rewrite TT. rewrite <- ?app_assoc. cbn [app]. reflexivity.
    + unfold fine. rewrite G. exact R.
    + rewrite TG, <- app_assoc. reflexivity.
    + right. rewrite G. destruct R as [_ R]. destruct (group (Text ws :: ls)) as [|[]] eqn:E; try exact R.
      exfalso. cbn [group] in E. destruct (group ls) as [|[]]; try discriminate E. destruct (starts_with_text ls); discriminate E.
    + rewrite TC, <- app_assoc. reflexivity.
    + unfold fine. rewrite G. exact R.
    + rewrite TX, <- app_assoc. reflexivity.
  - (* code *)
    destruct ST as [col' ->]. cbn [c_state c_prev c_words c_col c_code].
    assert (CB : code_blocks (group (Code t :: ls)) <= 1 -> match group ls with CodeBlock _ _ :: bs => code_blocks bs = 0 | bs => code_blocks bs = 0 end).
    { rewrite cb_code. destruct (group ls) as [|[]]; lia. }
    assert (NZ : code_blocks (group (Code t :: ls)) <> 0) by (rewrite cb_code; destruct (group ls) as [|[]]; discriminate).
    assert (TT : rest (group (Code t :: ls)) = paragraph_string :: t :: todo_code 1 ls).
    { unfold todo_code. cbn [group]. destruct (group ls) as [|[ws'|f more] bs]; try reflexivity.
      unfold rest. cbn [flat_map block_words fst snd Nat.add app]. rewrite <- ?app_assoc. cbn [app]. reflexivity. }
    assert (TG : todo_first None (group (Code t :: ls)) = t :: todo_code 1 ls).
    { destruct (group (Code t :: ls)) as [|b bs] eqn:E; [exfalso; apply NZ; reflexivity|]. unfold rest in TT; cbn [flat_map app] in TT. injection TT as TT. exact TT. }
    assert (TX : todo_text (Code t :: ls) = rest (group (Code t :: ls))).
    { unfold todo_text. cbn [starts_with_text]. destruct (group (Code t :: ls)) as [|[]]; reflexivity. }
    assert (TC : forall k, todo_code k (Code t :: ls) = repeat nl k ++ t :: todo_code 1 ls).
    { intros k. rewrite <- TG. unfold todo_code. cbn [group blanks]. rewrite Nat.add_0_r. destruct (group ls) as [|[]]; reflexivity. }
    unfold pre_code. cbn [c_state c_prev c_code].
    destruct st; try discriminate S; destruct p as [[|]|]; try discriminate S; apply some_inj in S; subst w.
    all: split; [split; [reflexivity|]|split; [right; reflexivity|]; eexists; split; [reflexivity|]; cbn [length]].
    + destruct R as [[_ R] | R]; [apply CB, R | contradiction].
    + destruct R as [[-> _] | R]; [|contradiction]. change (todo_first (Some Text_paragraph)) with rest; rewrite TT, <- app_assoc. reflexivity.
    + destruct R as [[_ R] | R]; [apply CB, R | contradiction].
    + destruct R as [[-> _] | R]; [|contradiction]. rewrite TG, <- app_assoc. reflexivity.
    + destruct R as [_ R]. cbn [group] in R. destruct (group ls) as [|[]]; exact R.
    + rewrite TC, map_const. rewrite <- !app_assoc. reflexivity.
    + destruct R as [[_ R] | R]; [apply CB, R | contradiction].
    + rewrite TX, TT, <- app_assoc. reflexivity.
Qed.
Lemma spec_end s w : spec_of s [] = Some w -> w = [].
Proof. unfold spec_of. destruct (c_state s); destruct (c_prev s) as [[]|]; intros E; injection E as <- || discriminate E; reflexivity. Qed.

(** Lines of a string *)
Section Lines.
  Context (is_bytes : bool) (tab_width : nat) (allow_code : bool) (code_indent : nat) (conv : bool).
  Notation write_all := (write_all is_bytes tab_width allow_code code_indent conv).
  Notation close := (close tab_width allow_code code_indent conv).
  Notation is_class := (is_class is_bytes tab_width allow_code code_indent conv).
  Hypothesis tab_pos : allow_code = true -> 0 < tab_width.
  Lemma run_lines lines classes : Forall2 is_class lines classes -> Forall (fun l => ~ In 10%N l) lines ->
    (forall t, last classes Blank <> Code t) ->
    forall s w, lines <> [] -> at_line s -> spec_of s classes = Some w -> ready s classes ->
    exists s', rbind (write_all ([], [], s) (join [10%N] lines)) close = Ok s' /\ c_words s' = c_words s ++ w.
  Proof.
    intros F. induction F as [|line cl lines classes C F IH]; intros N LC s w NE A S R; [contradiction|].
    inversion N as [|? ? N1 N2]; subst.
    destruct lines as [|line2 lines].
    - inversion F; subst. cbn [join last] in *.
      destruct (last_step is_bytes tab_width allow_code code_indent conv tab_pos line cl s C N1 A) as (s' & s'' & E1 & E2 & E3); [exact LC|].
      exists s'. split; [exact E1|]. rewrite E3. destruct (step_spec _ _ _ _ _ S R E2) as (_ & _ & w' & S' & EW). rewrite EW, (spec_end _ _ S'), app_nil_r. reflexivity.
    - destruct (line_step is_bytes tab_width allow_code code_indent conv tab_pos line cl s C N1 A) as (s' & E1 & E2).
      { intros t ->. apply (ready_asserts _ _ _ R). }
      destruct (step_spec _ _ _ _ _ S R E2) as (R' & A' & w' & S' & EW).
      replace (join [10%N] (line :: line2 :: lines)) with ((line ++ [10%N]) ++ join [10%N] (line2 :: lines)) by (rewrite <- app_assoc; reflexivity).
      rewrite write_all_app, E1. cbn [rbind].
      destruct (IH N2) with (s := s') (w := w') as (sf & EF & WF); try assumption; [|discriminate|].
      { inversion F; subst. cbn [last] in LC |- *. exact LC. }
      exists sf. split; [exact EF|]. rewrite WF. symmetry. exact EW.
  Qed.
  Lemma nonempty_group (bs : list block) : Forall (fun b => block_words b <> []) bs -> todo_first None bs = [] -> bs = [].
  Proof. intros F E. destruct F as [|b bs B F]; [reflexivity|]. cbn in E. apply app_eq_nil in E. destruct E. contradiction. Qed.
  Lemma group_words lines classes : Forall2 is_class lines classes -> Forall (fun b => block_words b <> []) (group classes).
  Proof.
    induction 1 as [|line cl lines classes C F IH]; [constructor|]. destruct C; cbn [group]; [exact IH| |].
    - destruct (group classes) as [|[ws'|f more] bs]; [| |]; try (constructor; [discriminate|exact IH]).
      destruct (starts_with_text classes); constructor; try discriminate; [|exact IH]. inversion IH; assumption.
    - destruct (group classes) as [|[ws'|f more] bs]; try (constructor; [discriminate|exact IH]). constructor; [discriminate|]. inversion IH; assumption.
  Qed.
  Theorem split_lines lines classes : Forall2 is_class lines classes -> Forall (fun l => ~ In 10%N l) lines -> lines <> [] ->
    (forall t, last classes Blank <> Code t) -> code_blocks (group classes) <= 1 ->
    split_text_with_code is_bytes tab_width allow_code code_indent conv (join [10%N] lines) = Ok (all_words (group classes)).
  Proof.
    intros F N NE LC CB. unfold split_text_with_code.
    destruct (run_lines lines classes F N LC (Cws [] [] None 0 Paragraph_start) (todo_first None (group classes)) NE) as (s' & E & W).
    { left; reflexivity. } { reflexivity. } { left. split; [reflexivity|exact CB]. }
    cbn [c_words app] in W. destruct (write_all _ _) as [wr|e] eqn:EW; [|discriminate E]. cbn [rbind] in *. rewrite E. cbn [rmap]. f_equal. rewrite W.
    pose proof (nonempty_group _ (group_words _ _ F)) as NG. destruct (group classes) as [|b bs]; [reflexivity|].
    unfold all_words. change (flat_map (fun b0 => [10%N; 10%N] :: block_words b0) bs) with (rest bs). cbn [todo_first] in *.
    destruct (block_words b ++ rest bs) as [|x l]; [discriminate (NG eq_refl) | reflexivity].
  Qed.
End Lines.
