(** split_delimiters with one-character delimiters equals the character scanner. *)
From Verif Require Import DelimModel DelimSpec SplitSpec SplitProof SplitProof2 SplitProof3 SplitProps PyStrProof DelimProof DelimProof2 DelimProof3 DelimProof4.

(** a one-character delimiter as a Delimiter object *)
Definition d_of (d : delimiter1) : delimiter :=
  match d with Nest x => mkDelimiter [x] [] true false | Quote x e m => mkDelimiter [x] [e] m true end.
Definition table_of (t : list (chr * delimiter1)) : delimiters := map (fun p => ([fst p], d_of (snd p))) t.
Definition close1 (d : delimiter1) : chr := match d with Nest x | Quote x _ _ => x end.
Definition is_quote (d : delimiter1) : bool := match d with Nest _ => false | Quote _ _ _ => true end.

Definition final (p : list triple * outcome) : generated triple :=
  let '(y, r) := p in
  match r with
  | Raised e => (y, Some e)
  | Resplit _ _ _ _ _ => (y, Some OutOfFuel)
  | Finished buffer escaped =>
      if negb (is_nil escaped) then (y, Some SyntaxError)
      else (y ++ match concat buffer with [] => [] | s => [(s, [], [])] end, None)
  end.
Lemma final_yield t y r : final (t :: y, r) = (t :: fst (final (y, r)), snd (final (y, r))).
Proof. destruct r as [b e|e|]; cbn; auto. destruct (negb (is_nil e)); reflexivity. Qed.
Lemma final_let (t : triple) p : final (let '(y, r) := p in (t :: y, r)) = (t :: fst (final p), snd (final p)).
Proof. destruct p as [y r]. apply final_yield. Qed.

Section Single.
  Context (is_bytes : bool) (t1 : list (chr * delimiter1)).
  Context (T0 : t1 <> []) (Disjoint : forall k k' x, In k (map fst t1) -> In (k', Nest x) t1 -> x <> k).
  Notation table := (table_of t1).
  Notation loop := (delimiter_loop is_bytes table).
  Lemma table_of_in k d : In (k, d) table <-> exists c e, k = [c] /\ d = d_of e /\ In (c, e) t1.
  Proof.
    unfold table_of. rewrite in_map_iff. split.
    - intros ([c e] & [= <- <-] & I). exists c, e. auto.
    - intros (c & e & -> & -> & I). exists (c, e). auto.
  Qed.
  Lemma table_of_ok : table_ok table.
  Proof.
    constructor.
    - unfold table_of. destruct t1; [congruence|discriminate].
    - intros k d I. apply table_of_in in I. destruct I as (c & e & -> & -> & I). destruct e; cbn; split; discriminate.
    - intros k d I. apply table_of_in in I. destruct I as (c & e & -> & -> & I). destruct e; cbn; split; congruence || discriminate.
    - intros k d I. apply table_of_in in I. destruct I as (c & e & -> & -> & I). destruct e; cbn; auto.
    - intros k k' d I J Q E. apply table_of_in in J. destruct J as (c & e & -> & -> & J). destruct e as [x|]; [|discriminate]. cbn in E. subst k.
      unfold openers, table_of in I. rewrite map_map in I. cbn in I. apply in_map_iff in I. destruct I as ([c2 e2] & [= ->] & I).
      apply (Disjoint x c x); auto. apply in_map_iff. exists (x, e2). auto.
  Qed.
  Notation OK := table_of_ok.
  Definition newline_chars : list chr := if is_bytes then [10; 13]%N else [10; 11; 12; 13; 28; 29; 30; 133; 8232; 8233]%N.
  Lemma newline_chars_spec c : In c newline_chars <-> is_linebreak is_bytes c = true.
  Proof.
    unfold newline_chars, is_linebreak, between. destruct is_bytes; cbn; rewrite !orb_true_iff, ?andb_true_iff, ?N.leb_le, !N.eqb_eq; split; lia.
  Qed.
  Definition token_chars : list chr :=
    map fst t1 ++ map (fun p => close1 (snd p)) t1 ++ flat_map (fun p => match snd p with Quote _ e _ => [e] | Nest _ => [] end) t1
    ++ (if forallb (fun p => match snd p with Quote _ _ m => m | Nest _ => true end) t1 then [] else newline_chars).
  Lemma escapes_single : escapes table = map one (flat_map (fun p : chr * delimiter1 => match snd p with Quote _ e _ => [e] | Nest _ => [] end) t1).
  Proof. clear T0 Disjoint. unfold escapes, table_of. induction t1 as [|[c [x|x e m]] t IH]; cbn; auto. now f_equal. Qed.
  Lemma all_multiline_single : forallb (fun p : str * delimiter => d_multiline (snd p)) table = forallb (fun p : chr * delimiter1 => match snd p with Quote _ _ m => m | Nest _ => true end) t1.
  Proof. clear T0 Disjoint. unfold table_of. induction t1 as [|[c [x|x e m]] t IH]; cbn; auto. now rewrite IH. Qed.
  Lemma newlines_single : newlines_of is_bytes table = map one (if forallb (fun p : chr * delimiter1 => match snd p with Quote _ _ m => m | Nest _ => true end) t1 then [] else newline_chars).
  Proof. unfold newlines_of. rewrite all_multiline_single. destruct (forallb _ t1); auto. unfold newline_chars. destruct is_bytes; reflexivity. Qed.
  Lemma tokens_single : all_tokens is_bytes table = map one token_chars.
  Proof.
    unfold all_tokens, delimiter_tokens, token_chars. rewrite !map_app, escapes_single, newlines_single, <- !app_assoc. f_equal; [|f_equal].
    - unfold openers, table_of. now rewrite !map_map.
    - unfold closers, table_of. rewrite !map_map. apply map_ext. intros [c [x|x e m]]; reflexivity.
  Qed.
  (** the delimiters of the table that are open *)
  Fixpoint state_of (stack : list delimiter1) : option delimiter * list (option delimiter) :=
    match stack with [] => (None, []) | d :: below => (Some (d_of d), fst (state_of below) :: snd (state_of below)) end.
  Definition from_table (stack : list delimiter1) : Prop := Forall (fun d => exists k, In (k, d) t1) stack.
  Lemma cur_in_table stack : from_table stack -> in_table table (fst (state_of stack)).
  Proof. intros F. destruct F as [|d l [k I] F]; [exact Logic.I|]. exists [k]. apply table_of_in. eauto. Qed.
  Lemma get_single c : get table [c] = option_map d_of (opens t1 c).
  Proof. clear T0 Disjoint. unfold table_of. induction t1 as [|[k d] t IH]; cbn; auto. rewrite andb_true_r. destruct (k =? c)%N; auto. Qed.
  Lemma opens_in c d : opens t1 c = Some d -> In (c, d) t1.
  Proof. clear T0 Disjoint. induction t1 as [|[k d'] t IH]; cbn; [discriminate|]. destruct (k =? c)%N eqn:E; auto. apply N.eqb_eq in E. intros [= <-]. left. congruence. Qed.
  Lemma opens_none c : opens t1 c = None <-> ~ In c (map fst t1).
  Proof.
    clear T0 Disjoint. induction t1 as [|[k d'] t IH]; cbn; [tauto|]. destruct (k =? c)%N eqn:E.
    - apply N.eqb_eq in E. split; [discriminate|]. intros H. exfalso. auto.
    - apply N.eqb_neq in E. rewrite IH. intuition.
  Qed.
  Lemma delimiter_tokens_single : delimiter_tokens table = map one (map fst t1 ++ map (fun p => close1 (snd p)) t1 ++ flat_map (fun p : chr * delimiter1 => match snd p with Quote _ e _ => [e] | Nest _ => [] end) t1).
  Proof.
    unfold delimiter_tokens. rewrite !map_app, escapes_single. f_equal; [|f_equal].
    - unfold openers, table_of. now rewrite !map_map.
    - unfold closers, table_of. rewrite !map_map. apply map_ext. intros [c [x|x e m]]; reflexivity.
  Qed.
  Lemma reserved_iff c : reserved t1 c = true <-> In c (map (fun p => close1 (snd p)) t1 ++ flat_map (fun p : chr * delimiter1 => match snd p with Quote _ e _ => [e] | Nest _ => [] end) t1).
  Proof.
    unfold reserved. rewrite existsb_exists, in_app_iff, in_map_iff, in_flat_map. split.
    - intros ([k [x|x e m]] & I & E); cbn in E.
      + apply N.eqb_eq in E. left. exists (k, Nest x). auto.
      + apply orb_true_iff in E. destruct E as [E|E]; apply N.eqb_eq in E; [left; exists (k, Quote x e m); auto|right; exists (k, Quote x e m); cbn; auto].
    - intros [([k [x|x e m]] & E & I)|([k [x|x e m]] & I & E)]; cbn in E.
      + subst x. exists (k, Nest c). split; auto. apply N.eqb_refl.
      + subst x. exists (k, Quote c e m). split; auto. cbn. now rewrite N.eqb_refl.
      + contradiction.
      + destruct E as [<-|[]]. exists (k, Quote x e m). split; auto. cbn. now rewrite N.eqb_refl, orb_true_r.
  Qed.
  Lemma str_in_tokens c : str_in [c] (delimiter_tokens table) = match opens t1 c with Some _ => true | None => reserved t1 c end.
  Proof.
    rewrite delimiter_tokens_single, str_in_one. destruct (opens t1 c) as [d|] eqn:O.
    - apply chr_in_iff. rewrite in_app_iff. left. apply opens_in in O. apply in_map_iff. exists (c, d). auto.
    - apply opens_none in O. destruct (reserved t1 c) eqn:R.
      + apply reserved_iff in R. apply chr_in_iff. rewrite in_app_iff. auto.
      + destruct (chr_in c _) eqn:Q; auto. apply chr_in_iff in Q. rewrite in_app_iff in Q. destruct Q as [Q|Q]; [contradiction|]. apply reserved_iff in Q. congruence.
  Qed.
  (** which action a one-character token leads to *)
  Definition act (stack : list delimiter1) (c : chr) : action :=
    match stack with
    | Quote x e m :: _ => if (c =? e)%N then Escape else if (c =? x)%N then Pop
                          else if negb m && is_linebreak is_bytes c then IllegalNewline else Flush
    | _ => match opens t1 c with
           | Some d => Push [c] (d_of d)
           | None => match stack with
                     | Nest x :: _ => if (c =? x)%N then Pop else if reserved t1 c then Illegal else Flush
                     | _ => if reserved t1 c then Illegal else Flush
                     end
           end
    end.
  Lemma token_loop_single q x es c a : Forall (fun e : str => length e = 1) (x :: es) -> [c] <> x -> ~ In [c] es ->
    token_loop q (concat (x :: es)) (x :: es) [c] a = a.
  Proof.
    intros F Nx Ne. assert (Sh : shares_characters [c] (concat (x :: es)) = false).
    { cbn [shares_characters existsb]. rewrite orb_false_r. apply not_true_iff_false. intros H. apply existsb_exists in H. destruct H as (d & I & E). apply N.eqb_eq in E. subst d.
      apply in_concat in I. destruct I as (e & I & J). rewrite Forall_forall in F. specialize (F e I). destruct e as [|y [|]]; try discriminate. destruct J as [->|[]].
      destruct I as [->|I]; auto. }
    revert a. assert (G : forall l a, Forall (fun e : str => length e = 1) l -> ~ In [c] l -> token_loop q (concat (x :: es)) l [c] a = a).
    { induction l as [|e l IH]; intros a Fl Nl; auto. cbn [token_loop]. inversion Fl; subst. destruct (str_eqb [c] e) eqn:E; [apply str_eqb_iff in E; subst; exfalso; apply Nl; now left|].
      destruct (starts_with e [c]) eqn:W.
      - destruct (starts_with_app e [c] W) as [r Er]. destruct e as [|y [|]]; try discriminate. injection Er as -> Er. now rewrite str_eqb_refl in E.
      - rewrite Sh, andb_false_r. apply IH; auto. intros I. apply Nl. now right. }
    intros a. apply G; auto. intros [->|I]; auto.
  Qed.
  Lemma lookup_single stack c : from_table stack -> lookup is_bytes table (fst (state_of stack)) [c] = act stack c.
  Proof.
    intros F. destruct F as [|d l [k I] F]; cbn [state_of fst lookup].
    - unfold push_or. rewrite get_single, str_in_tokens. cbn [act]. destruct (opens t1 c); reflexivity.
    - destruct d as [x|x e m]; cbn [d_of d_quoting d_escape d_close d_multiline is_nil negb andb].
      + unfold push_or. rewrite get_single, str_in_tokens. cbn [act]. destruct (opens t1 c) eqn:O; [reflexivity|]. cbn [option_map].
        cbn [str_eqb]. rewrite andb_true_r. destruct (c =? x)%N eqn:E; [reflexivity|]. apply N.eqb_neq in E.
        pose proof (token_loop_single false [x] [] c) as TL. cbn [concat app] in TL. rewrite app_nil_r. change ([x] ++ []) with [x] in TL.
        rewrite TL; [|repeat constructor|congruence|auto]. destruct (str_in [c] (all_tokens _ _)); reflexivity.
      + cbn [act str_eqb]. rewrite !andb_true_r. destruct (c =? e)%N eqn:Ee; [reflexivity|]. destruct (c =? x)%N eqn:Ex; [reflexivity|]. apply N.eqb_neq in Ee, Ex.
        pose proof (token_loop_single true [x] [[e]] c) as TL. cbn [concat app] in TL. cbn [app].
        rewrite TL; [|repeat constructor|congruence|intros [[= H]|[]]; congruence].
        assert (Nl : negb m && str_in [c] (newlines_of is_bytes table) = negb m && is_linebreak is_bytes c).
        { destruct m; auto. cbn [negb andb]. rewrite newlines_single, str_in_one.
          assert (forallb (fun p : chr * delimiter1 => match snd p with Quote _ _ m => m | Nest _ => true end) t1 = false) as ->.
          { apply not_true_iff_false. intros H. rewrite forallb_forall in H. specialize (H _ I). discriminate. }
          destruct (is_linebreak is_bytes c) eqn:L; [apply chr_in_iff; now apply newline_chars_spec|].
          apply not_true_iff_false. intros H. apply chr_in_iff, newline_chars_spec in H. congruence. }
        rewrite Nl. destruct (negb m && is_linebreak is_bytes c); auto. destruct (str_in [c] (all_tokens _ _)); reflexivity.
  Qed.
  Definition single_tokens (l : list (str * str)) : Prop := Forall (fun p : str * str => exists c, snd p = [c] /\ In c token_chars) l.
  Lemma act_push stack c o d : act stack c = Push o d -> exists d1, d = d_of d1 /\ o = [c] /\ In (c, d1) t1.
  Proof.
    assert (O : forall r, match opens t1 c with Some d => Push [c] (d_of d) | None => r end = Push o d -> (exists d1, d = d_of d1 /\ o = [c] /\ In (c, d1) t1) \/ r = Push o d).
    { intros r. destruct (opens t1 c) as [d1|] eqn:O; auto. intros [= <- <-]. left. exists d1. repeat split; auto. now apply opens_in. }
    unfold act. destruct stack as [|[x|x e m] st]; intros H.
    - destruct (O _ H) as [|H']; auto. destruct (reserved t1 c); discriminate.
    - destruct (O _ H) as [|H']; auto. destruct (c =? x)%N; [discriminate|]. destruct (reserved t1 c); discriminate.
    - destruct (c =? e)%N; [discriminate|]. destruct (c =? x)%N; [discriminate|]. destruct (negb m && _); discriminate.
  Qed.
  Lemma act_pop stack c : act stack c = Pop -> exists d below, stack = d :: below.
  Proof.
    destruct stack as [|d below]; eauto. unfold act. destruct (opens t1 c); [discriminate|]. destruct (reserved t1 c); discriminate.
  Qed.
  Lemma act_no_resplit stack c : act stack c <> Flush1 /\ forall s, act stack c <> Truncate s.
  Proof.
    unfold act. destruct stack as [|[x|x e m] st]; [| |].
    - destruct (opens t1 c); [split; discriminate|]. destruct (reserved t1 c); split; discriminate.
    - destruct (opens t1 c); [split; discriminate|]. destruct (c =? x)%N; [split; discriminate|]. destruct (reserved t1 c); split; discriminate.
    - destruct (c =? e)%N; [split; discriminate|]. destruct (c =? x)%N; [split; discriminate|]. destruct (negb m && _); split; discriminate.
  Qed.
  (** one step of the loop on a token, when not skipping an escaped one *)
  Definition step (stack : list delimiter1) (buffer : list str) (c : chr) (n : nat) (rest : list item) : generated triple :=
    match act stack c with
    | Push _ d => let g := final (loop rest (Some d) (fst (state_of stack) :: snd (state_of stack)) [] [] n) in ((concat buffer, [c], []) :: fst g, snd g)
    | Pop => let g := final (loop rest (fst (state_of (tl stack))) (snd (state_of (tl stack))) [] [] n) in ((concat buffer, [], [c]) :: fst g, snd g)
    | Escape => final (loop rest (fst (state_of stack)) (snd (state_of stack)) (buffer ++ [[c]]) [c] n)
    | Flush => final (loop rest (fst (state_of stack)) (snd (state_of stack)) (buffer ++ [[c]]) [] n)
    | _ => ([], Some SyntaxError)
    end.
  Lemma loop_step stack x c rest buffer escaped n : from_table stack -> In c token_chars -> negb (is_nil escaped) && is_nil x = false -> exists n',
    final (loop (Two x [c] :: rest) (fst (state_of stack)) (snd (state_of stack)) buffer escaped n) = step stack (buffer ++ [x]) c n' rest.
  Proof.
    intros F TC E. cbn [delimiter_loop]. cbn [is_nil]. rewrite andb_false_r, E. cbv zeta. rewrite lookup_single by auto. unfold step.
    destruct (act_no_resplit stack c) as [NF NT].
    destruct (act stack c) eqn:A; try congruence; try (exists (n + length x); reflexivity); try (exists (n + length x + length [c]); reflexivity).
    - exists (n + length x + length [c]). rewrite final_let. reflexivity.
    - destruct (act_pop _ _ A) as (d & below & ->). cbn [state_of snd fst tl]. exists (n + length x + length [c]). rewrite final_let. reflexivity.
  Qed.
  Lemma step_buffer stack (b b' : list str) c n n' rest : concat b = concat b' ->
    (forall st (B B' : list str) e, from_table st -> concat B = concat B' -> final (loop rest (fst (state_of st)) (snd (state_of st)) B e n) = final (loop rest (fst (state_of st)) (snd (state_of st)) B' e n')) ->
    from_table stack -> step stack b c n rest = step stack b' c n' rest.
  Proof.
    intros E IH F. unfold step. destruct (act stack c) eqn:A; auto.
    - destruct (act_push _ _ _ _ A) as (d1 & -> & -> & I). rewrite E.
      assert (Fd : from_table (d1 :: stack)) by (constructor; eauto). pose proof (IH (d1 :: stack) [] [] [] Fd eq_refl) as H. cbn [state_of fst snd] in H. now rewrite H.
    - destruct (act_pop _ _ A) as (d & below & ->). cbn [tl]. rewrite E. inversion F; subst. now rewrite (IH below [] [] []) by auto.
    - apply IH; auto. rewrite !concat_snoc. congruence.
    - apply IH; auto. rewrite !concat_snoc. congruence.
  Qed.
  Lemma final_buffer l y : single_tokens l -> forall stack (b b' : list str) e n n', from_table stack -> concat b = concat b' ->
    final (loop (as_pairs l y) (fst (state_of stack)) (snd (state_of stack)) b e n) = final (loop (as_pairs l y) (fst (state_of stack)) (snd (state_of stack)) b' e n').
  Proof.
    induction 1 as [|[x w] l (c & Ew & TC) Fl IH]; intros stack b b' e n n' F E.
    - unfold as_pairs. cbn [map app delimiter_loop is_nil]. rewrite !andb_true_r. destruct (is_nil y) eqn:Y.
      + cbn [final]. now rewrite E.
      + rewrite !andb_false_r. cbn [final is_nil negb]. now rewrite !concat_snoc, E.
    - cbn [snd] in Ew. subst w. change (as_pairs ((x, [c]) :: l) y) with (Two x [c] :: as_pairs l y).
      destruct (negb (is_nil e) && is_nil x) eqn:Esc.
      + cbn [delimiter_loop]. cbn [is_nil]. rewrite andb_false_r, Esc. cbn [length Nat.eqb]. apply IH; auto. rewrite !concat_snoc. congruence.
      + destruct (loop_step stack x c (as_pairs l y) b e n F TC Esc) as [m ->]. destruct (loop_step stack x c (as_pairs l y) b' e n' F TC Esc) as [m' ->].
        apply step_buffer; auto. rewrite !concat_snoc. congruence.
  Qed.
  Notation pairs := (DelimProof2.pairs token_chars [] None).
  Notation toks := (DelimProof2.toks token_chars [] None).
  Lemma pairs1_cons c t : pairs (c :: t) = if chr_in c token_chars then Two [] [c] :: pairs t else as_pairs (fst (prepend c (toks t))) (snd (prepend c (toks t))).
  Proof. rewrite pairs_cons. rewrite app_nil_r. destruct t; reflexivity. Qed.
  Lemma toks_single s : single_tokens (fst (toks s)).
  Proof.
    pose proof (toks_split token_chars [] None s) as S. apply splits_in_seps in S. eapply Forall_impl; [|exact S]. intros p I. cbn in I. apply in_seps1 in I.
    destruct I as [(c & E & I)|(c & d & _ & H)]; [|discriminate]. rewrite app_nil_r in I. eauto.
  Qed.
  Lemma final_prepend c t stack buffer e n : from_table stack ->
    final (loop (as_pairs (fst (prepend c (toks t))) (snd (prepend c (toks t)))) (fst (state_of stack)) (snd (state_of stack)) buffer e n) =
    final (loop (pairs t) (fst (state_of stack)) (snd (state_of stack)) (buffer ++ [[c]]) [] n).
  Proof.
    intros F. rewrite as_pairs_prepend. unfold DelimProof2.pairs, as_pairs. pose proof (toks_single t) as T.
    destruct (toks t) as [[|[x w] l] y]; cbn [fst snd map app] in *.
    - cbn [delimiter_loop is_nil andb]. rewrite !andb_true_r, andb_false_r. destruct (is_nil y) eqn:Y.
      + apply is_nil_iff in Y. subst y. cbn [final is_nil negb]. reflexivity.
      + cbn [is_nil negb andb]. cbn [final is_nil negb]. rewrite !concat_snoc, <- app_assoc. reflexivity.
    - inversion T as [|? ? (d & Ew & TC) Tl]; subst. cbn [snd] in Ew. subst w.
      change (map (fun p : str * str => Two (fst p) (snd p)) l ++ [Two y []]) with (as_pairs l y).
      destruct (loop_step stack (c :: x) d (as_pairs l y) buffer e n F TC) as [m ->]; [apply andb_false_r|].
      destruct (loop_step stack x d (as_pairs l y) (buffer ++ [[c]]) [] n F TC) as [m' ->]; [reflexivity|].
      apply step_buffer; auto.
      + rewrite !concat_snoc, <- app_assoc. reflexivity.
      + intros. now apply final_buffer.
  Qed.
  Notation scan := (scan1 t1 (is_linebreak is_bytes)).
  Lemma act_plain stack c : from_table stack -> ~ In c token_chars -> act stack c = Flush.
  Proof.
    unfold token_chars. rewrite !in_app_iff. intros F N. assert (O : opens t1 c = None) by (apply opens_none; tauto).
    assert (R : reserved t1 c = false) by (apply not_true_iff_false; rewrite reserved_iff, in_app_iff; tauto).
    unfold act. rewrite O, R. destruct F as [|d st [k I] F]; auto. 
    assert (C : c <> close1 d) by (intros ->; apply N; right; left; apply in_map_iff; exists (k, d); auto).
    destruct d as [x|x e m]; cbn [close1] in C.
    - now rewrite (proj2 (N.eqb_neq _ _) C).
    - assert (Ce : c <> e) by (intros ->; apply N; do 2 right; left; apply in_flat_map; exists (k, Quote x e m); cbn; auto).
      rewrite (proj2 (N.eqb_neq _ _) C), (proj2 (N.eqb_neq _ _) Ce). destruct m; auto. cbn [negb andb].
      destruct (is_linebreak is_bytes c) eqn:L; auto. exfalso. apply N. do 3 right.
      replace (forallb _ t1) with false; [now apply newline_chars_spec|]. symmetry. apply not_true_iff_false. intros H. rewrite forallb_forall in H. specialize (H _ I). discriminate.
  Qed.
  (** the scanner in terms of the action *)
  Lemma scan_act stack text c t : from_table stack -> scan stack text false (c :: t) =
    match act stack c with
    | Push _ _ => match opens t1 c with Some d => let g := scan (d :: stack) [] false t in ((text, [c], []) :: fst g, snd g) | None => ([], None) end
    | Pop => let g := scan (tl stack) [] false t in ((text, [], [c]) :: fst g, snd g)
    | Escape => scan stack (text ++ [c]) true t
    | Flush => scan stack (text ++ [c]) false t
    | _ => ([], Some SyntaxError)
    end.
  Proof.
    intros _. cbn [DelimSpec.scan1]. unfold act. destruct stack as [|[x|x e m] st]; cbn [tl].
    - destruct (opens t1 c); [now destruct (scan _ _ _ _)|]. destruct (reserved t1 c); reflexivity.
    - destruct (opens t1 c); [now destruct (scan _ _ _ _)|]. destruct (c =? x)%N; [now destruct (scan _ _ _ _)|]. destruct (reserved t1 c); reflexivity.
    - destruct (c =? e)%N; [reflexivity|]. destruct (c =? x)%N; [now destruct (scan _ _ _ _)|]. destruct (negb m && is_linebreak is_bytes c); reflexivity.
  Qed.
  Lemma scan_loop1 s : forall stack (buffer : list str) escaped n, from_table stack ->
    final (loop (pairs s) (fst (state_of stack)) (snd (state_of stack)) buffer escaped n) = scan stack (concat buffer) (negb (is_nil escaped)) s.
  Proof.
    induction s as [|c t IH]; intros stack buffer escaped n F.
    - unfold DelimProof2.pairs, as_pairs. cbn [DelimProof2.toks fst snd map app delimiter_loop is_nil andb final DelimSpec.scan1]. destruct (negb (is_nil escaped)); [reflexivity|]. destruct (concat buffer); reflexivity.
    - rewrite pairs1_cons. destruct (chr_in c token_chars) eqn:TC.
      + apply chr_in_iff in TC. destruct (negb (is_nil escaped)) eqn:E.
        * cbn [delimiter_loop is_nil andb]. rewrite E. cbn [andb length Nat.eqb]. rewrite IH by auto. cbn [is_nil negb]. rewrite concat_snoc. reflexivity.
        * destruct (loop_step stack [] c (pairs t) buffer escaped n F TC) as [m ->]; [now rewrite E|]. rewrite scan_act by auto. unfold step.
          rewrite concat_snoc, app_nil_r. destruct (act stack c) eqn:A; auto.
          -- destruct (opens t1 c) as [d1|] eqn:O.
             2:{ exfalso. destruct (act_push _ _ _ _ A) as (d1 & -> & -> & I). apply opens_none in O. apply O. apply in_map_iff. exists (c, d1). auto. }
             assert (Ed : d = d_of d1).
             { unfold act in A. rewrite O in A. destruct stack as [|[x|x e mm] st]; try congruence.
               destruct (c =? e)%N; [discriminate|]. destruct (c =? x)%N; [discriminate|]. destruct (negb mm && _); discriminate. }
             subst d. assert (Fd : from_table (d1 :: stack)) by (constructor; [exists c; now apply opens_in|auto]).
             pose proof (IH (d1 :: stack) [] [] m Fd) as H. cbn [state_of fst snd concat is_nil negb] in H. now rewrite H.
          -- destruct (act_pop _ _ A) as (d & below & ->). cbn [tl]. inversion F; subst. now rewrite IH by auto.
          -- rewrite IH by auto. rewrite !concat_snoc, app_nil_r. reflexivity.
          -- rewrite IH by auto. rewrite !concat_snoc, app_nil_r. reflexivity.
      + assert (TC' : ~ In c token_chars) by (rewrite <- chr_in_iff; congruence). rewrite final_prepend by auto. rewrite IH by auto. rewrite concat_snoc. cbn [is_nil negb].
        destruct (negb (is_nil escaped)) eqn:E; [reflexivity|]. rewrite scan_act, act_plain by auto. reflexivity.
  Qed.
  (** the loop never asks for another split *)
  Lemma no_resplit l y : single_tokens l -> forall stack b e n, from_table stack -> (e <> [] -> b <> []) ->
    match snd (loop (as_pairs l y) (fst (state_of stack)) (snd (state_of stack)) b e n) with Resplit _ _ _ _ _ => False | Raised _ => True | Finished b e => e <> [] -> b <> [] end.
  Proof.
    induction 1 as [|[x w] l (c & Ew & TC) Fl IH]; intros stack b e n F E.
    - unfold as_pairs. cbn [map app delimiter_loop is_nil]. rewrite !andb_true_r. destruct (is_nil y) eqn:Y; [exact E|]. rewrite andb_false_r. cbn. congruence.
    - cbn [snd] in Ew. subst w. change (as_pairs ((x, [c]) :: l) y) with (Two x [c] :: as_pairs l y).
      cbn [delimiter_loop]. cbn [is_nil]. rewrite andb_false_r. destruct (negb (is_nil e) && is_nil x) eqn:Esc.
      + cbn [length Nat.eqb]. apply IH; auto.
      + cbv zeta. rewrite lookup_single by auto. destruct (act_no_resplit stack c) as [NF NT].
        assert (Q : forall (z : triple) p, snd (let '(y, r) := p in (z :: y, r)) = snd p :> outcome) by (intros z [? ?]; reflexivity).
        destruct (act stack c) eqn:A; try congruence; try exact Logic.I.
        * rewrite Q. destruct (act_push _ _ _ _ A) as (d1 & -> & -> & I). apply (IH (d1 :: stack)); [constructor; eauto|congruence].
        * destruct (act_pop _ _ A) as (d & below & ->). cbn [state_of snd fst]. rewrite Q. inversion F; subst. apply IH; auto.
        * apply IH; auto. intros _. now destruct (b ++ [x]).
        * apply IH; auto; congruence.
  Qed.
  Lemma run_single text fuel stack : from_table stack ->
    delimiter_run is_bytes table text (S fuel) (fst (state_of stack)) (snd (state_of stack)) [] [] 0 = scan stack [] false text.
  Proof.
    intros F. cbn [delimiter_run skipn].
    assert (TN : Forall (fun w : str => w <> []) (all_tokens is_bytes table)) by (apply tokens_nonempty, OK).
    rewrite (multisplit_pairs (all_tokens is_bytes table) text (toks text) TN); [|apply tokens_nonnil, OK|].
    2:{ pose proof (toks_split token_chars [] None text) as S. unfold seps1, quote_separators in S. cbn [esc_str is_nil map app] in S. rewrite app_nil_r in S. now rewrite tokens_single. }
    change (as_pairs (fst (toks text)) (snd (toks text))) with (pairs text).
    pose proof (scan_loop1 text stack [] [] 0 F) as H. cbn [concat is_nil negb] in H. rewrite <- H.
    pose proof (no_resplit (fst (toks text)) (snd (toks text)) (toks_single text) stack [] [] 0 F ltac:(congruence)) as NR.
    change (as_pairs (fst (toks text)) (snd (toks text))) with (pairs text) in NR.
    destruct (loop (pairs text) _ _ _ _ _) as [y r]. cbn [snd] in NR. destruct r as [b e|e|]; cbn [final]; auto; [|contradiction].
    destruct b as [|b0 b]; cbn [is_nil].
    - destruct e; [cbn; now rewrite app_nil_r|]. exfalso. apply NR; discriminate || reflexivity.
    - destruct (negb (is_nil e)); auto. destruct (concat (b0 :: b)); cbn [is_nil]; [now rewrite app_nil_r|reflexivity].
  Qed.
End Single.
