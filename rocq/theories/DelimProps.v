(** split_quoted_strings, split_delimiters: the properties C39, C40. *)
From Verif Require Import DelimModel DelimSpec SplitSpec SplitProof SplitProof2 SplitProof3 SplitProps PyStrProof.
From Verif Require Import DelimProof DelimProof2 DelimProof3 DelimProof4 DelimProof5 DelimProof6.

(** * C39 *)
(** the arguments split_quoted_strings accepts *)
Definition quotes_ok (quotes multiline_quotes : list str) (state : str) : Prop :=
  (forall q, In q (quotes ++ multiline_quotes) -> q <> []) /\ quotes ++ multiline_quotes <> [] /\
  NoDup (quotes ++ multiline_quotes) /\ (state = [] \/ In state (quotes ++ multiline_quotes)).
Lemma has_repeats_iff l : has_repeats l = false <-> NoDup l.
Proof.
  induction l as [|x l IH]; cbn; [split; auto; constructor|]. rewrite orb_false_iff, IH, str_in_false. split; [intros [A B]; now constructor|]. intros N. inversion N; auto.
Qed.
Lemma existsb_nil_false (l : list str) : existsb is_nil l = false <-> forall q, In q l -> q <> [].
Proof.
  split.
  - intros E q I ->. apply not_true_iff_false in E. apply E. apply existsb_exists. exists []. auto.
  - intros H. apply not_true_iff_false. intros E. apply existsb_exists in E. destruct E as (q & I & Z). apply is_nil_iff in Z. exact (H q I Z).
Qed.
Lemma NoDup_app_iff (a b : list str) : NoDup (a ++ b) <-> NoDup a /\ NoDup b /\ forall x, In x a -> ~ In x b.
Proof.
  induction a as [|x a IH]; cbn; [firstorder using NoDup_nil|]. rewrite !NoDup_cons_iff, IH, in_app_iff. firstorder (subst; auto).
Qed.
Lemma escape_separators_ok quotes multi escape : (forall q, In q (quotes ++ multi) -> q <> []) -> quotes ++ multi <> [] ->
  valid (Some (quote_separators quotes multi escape)).
Proof.
  intros NE NN. unfold quote_separators. split; cbn [seps_of].
  - intros H. apply NN. rewrite app_assoc in H. now apply app_eq_nil in H.
  - apply Forall_forall. intros w I. rewrite !in_app_iff in I. destruct I as [I|[I|I]]; [apply NE, in_app_iff; auto|apply NE, in_app_iff; auto|].
    destruct escape as [|e escape]; [contradiction|]. cbn [is_nil] in I. rewrite in_app_iff, in_map_iff in I. destruct I as [(q & <- & _)|[<-|[]]]; discriminate.
Qed.
Definition newline_inside (is_bytes : bool) (multiline_quotes : list str) (g : segment) : bool :=
  negb (is_nil (inside g)) && negb (str_in (inside g) multiline_quotes) && existsb (is_linebreak is_bytes) (body g).
(** What is yielded are the segments of s, cut leftmost-longest at the quote marks, the escaped
    quote marks and the escaped escape; a segment with a forbidden line break ends it. *)
Theorem C39_segments : forall is_bytes s quotes escape multiline_quotes state, quotes_ok quotes multiline_quotes state ->
  exists l y segments,
    splits true (quote_separators quotes multiline_quotes escape) None s l y /\
    match state with
    | [] => outside (fun q => In q (quotes ++ multiline_quotes)) (pieces l y) segments
    | _ => inside_of (fun q => In q (quotes ++ multiline_quotes)) [] state (pieces l y) segments
    end /\
    split_quoted_strings is_bytes s quotes escape multiline_quotes state = Ok (deliver (newline_inside is_bytes multiline_quotes) segments).
Proof.
  intros is_bytes s quotes escape multi state (NE & NN & ND & St). unfold split_quoted_strings.
  rewrite (proj2 (existsb_nil_false quotes)) by (intros; apply NE, in_app_iff; auto).
  rewrite (proj2 (existsb_nil_false multi)) by (intros; apply NE, in_app_iff; auto).
  rewrite (proj2 (is_nil_false _ (quotes ++ multi)) NN).
  assert (negb (is_nil state) && negb (str_in state (quotes ++ multi)) = false) as ->.
  { destruct St as [-> |I]; auto. rewrite (proj2 (str_in_iff _ _) I). apply andb_false_r. }
  apply NoDup_app_iff in ND. destruct ND as (D1 & D2 & D3). rewrite (proj2 (has_repeats_iff quotes) D1), (proj2 (has_repeats_iff multi) D2).
  assert (existsb (fun q => str_in q multi) quotes = false) as ->.
  { apply not_true_iff_false. intros E. apply existsb_exists in E. destruct E as (q & I & J). apply str_in_iff in J. exact (D3 q I J). }
  destruct (C32_multisplit_is_the_split s (Some (quote_separators quotes multi escape)) AsPairs (Some (-1)%Z) false true (escape_separators_ok quotes multi escape NE NN)) as (l & y & Sp & ->).
  cbn in Sp. change (map (fun p : str * str => Two (fst p) (snd p)) l ++ [Two y []]) with (as_pairs l y).
  destruct (quoted_loop_spec is_bytes (quotes ++ multi) multi NE l y (splits_toks_nonempty _ _ _ _ (proj2 (escape_separators_ok quotes multi escape NE NN)) Sp) [] [] ltac:(constructor) eq_refl) as [Ho Hi].
  destruct state as [|c state].
  - destruct Ho as (out & O & E); [intros ? []|]. exists l, y, out. repeat split; auto. now rewrite E.
  - destruct (Hi (c :: state) (c :: state)) as (out & O & E); [discriminate|auto|intros ? []|]. exists l, y, out. repeat split; auto. now rewrite E.
Qed.
Print Assumptions C39_segments.
Definition shown (l : list segment) : str := concat (map (fun g => lead g ++ body g ++ DelimSpec.trail g) l).
Lemma shown_unquoted t out : shown (unquoted_segment t ++ out) = t ++ shown out.
Proof. destruct t; auto. unfold shown. cbn. now rewrite app_nil_r. Qed.
Scheme outside_ind2 := Minimality for outside Sort Prop with inside_ind2 := Minimality for inside_of Sort Prop.
Combined Scheme segments_ind from outside_ind2, inside_ind2.
Lemma segments_shown quote : (forall ps out, outside quote ps out -> shown out = text_of ps) /\
  (forall first q ps out, inside_of quote first q ps out -> shown out = first ++ text_of ps).
Proof.
  apply segments_ind.
  - intros ps _. rewrite <- (app_nil_r (unquoted_segment _)), shown_unquoted. apply app_nil_r.
  - intros ps q rest out _ _ _ IH. rewrite shown_unquoted, IH, text_of_app. reflexivity.
  - intros first q ps _. unfold shown. cbn. now rewrite !app_nil_r.
  - intros first q ps rest out _ _ IH. unfold shown in *. cbn [map concat lead body DelimSpec.trail]. rewrite IH, text_of_app, <- !app_assoc. reflexivity.
Qed.
Lemma deliver_shown bad l ys : deliver bad l = (ys, None) -> joined ys = shown l.
Proof.
  revert ys. induction l as [|x l IH]; intros ys E; cbn [deliver] in E; [injection E as <-; reflexivity|]. destruct (bad x); [discriminate|].
  destruct (deliver bad l) as [y e]. injection E as <- ->. rewrite joined_cons, (IH y eq_refl). unfold shown. cbn [map concat]. now rewrite <- !app_assoc.
Qed.
Lemma deliver_prefix bad l ys e : deliver bad l = (ys, e) -> exists t, joined ys ++ t = shown l.
Proof.
  revert ys. induction l as [|x l IH]; intros ys E; cbn [deliver] in E; [injection E as <- <-; now exists []|]. destruct (bad x); [injection E as <- <-; eexists; reflexivity|].
  destruct (deliver bad l) as [y e']. injection E as <- <-. destruct (IH y eq_refl) as [t Et]. exists t. rewrite joined_cons. unfold shown in *. cbn [map concat]. rewrite <- Et, <- !app_assoc. reflexivity.
Qed.
Lemma pieces_text l y : text_of (pieces l y) = flat l y.
Proof.
  unfold text_of, pieces, flat, alternating. rewrite map_app. cbn [map piece_text]. do 2 f_equal. induction l as [|[a b] l IH]; cbn; auto. now rewrite IH.
Qed.
(** Joining what is yielded gives s (and a prefix of it, if an exception ends it). *)
Theorem C39_text_preserved : forall is_bytes s quotes escape multiline_quotes state l e,
  quotes_ok quotes multiline_quotes state -> split_quoted_strings is_bytes s quotes escape multiline_quotes state = Ok (l, e) ->
  (e = None -> concat (map (fun p => fst (fst p) ++ snd (fst p) ++ snd p) l) = s) /\
  (e = None \/ e = Some SyntaxError /\ exists rest, concat (map (fun p => fst (fst p) ++ snd (fst p) ++ snd p) l) ++ rest = s).
Proof.
  intros is_bytes s quotes escape multi state ys e Q E. change (concat (map _ ys)) with (joined ys).
  destruct (C39_segments is_bytes s quotes escape multi state Q) as (l & y & segs & Sp & Sg & E'). rewrite E in E'. injection E' as E'. symmetry in E'.
  assert (Sh : shown segs = s).
  { rewrite <- (splits_flat _ _ _ _ _ _ Sp), <- pieces_text. destruct state as [|c state]; [now apply (proj1 (segments_shown _)) in Sg|].
    apply (proj2 (segments_shown _)) in Sg. exact Sg. }
  assert (Ex : e = None \/ e = Some SyntaxError).
  { clear - E'. revert ys E'. induction segs as [|x l IH]; intros ys E; cbn [deliver] in E; [injection E as <- <-; auto|]. destruct (newline_inside _ _ _); [injection E as <- <-; auto|].
    destruct (deliver _ l) as [y0 e0]. injection E as <- <-. eauto. }
  split.
  - intros ->. rewrite <- Sh. eapply deliver_shown; eauto.
  - destruct Ex as [Ex|Ex]; auto. right. split; auto. rewrite <- Sh. eapply deliver_prefix; eauto.
Qed.
Print Assumptions C39_text_preserved.
(** With one-character quote marks and an escape of at most one character (the default):
    exactly what a character-by-character scanner finds. *)
Theorem C39_scanner : forall is_bytes s quotes escape multiline_quotes, NoDup (quotes ++ multiline_quotes) -> quotes ++ multiline_quotes <> [] ->
  split_quoted_strings is_bytes s (map (fun c => [c]) quotes) (match escape with Some e => [e] | None => [] end) (map (fun c => [c]) multiline_quotes) [] =
    Ok (deliver (newline_inside is_bytes (map (fun c => [c]) multiline_quotes)) (scan quotes multiline_quotes escape None [] s)) /\
  forall q, In q (quotes ++ multiline_quotes) ->
  split_quoted_strings is_bytes s (map (fun c => [c]) quotes) (match escape with Some e => [e] | None => [] end) (map (fun c => [c]) multiline_quotes) [q] =
    Ok (deliver (newline_inside is_bytes (map (fun c => [c]) multiline_quotes)) (scan quotes multiline_quotes escape (Some (q, [])) [] s)).
Proof.
  intros is_bytes s quotes escape multi ND NN. change (map (fun c => [c]) quotes) with (map one quotes). change (map (fun c => [c]) multi) with (map one multi).
  assert (NE : forall q, In q (map one quotes ++ map one multi) -> q <> []).
  { intros q I ->. rewrite <- map_app in I. apply in_map_iff in I. destruct I as (x & H & _). discriminate. }
  assert (NN' : map one quotes ++ map one multi <> []) by (rewrite <- map_app; destruct (quotes ++ multi); [congruence|discriminate]).
  assert (ND' : NoDup (map one quotes ++ map one multi)).
  { rewrite <- map_app. apply FinFun.Injective_map_NoDup; auto. intros a b [= E]. exact E. }
  pose proof ND' as ND2. apply NoDup_app_iff in ND'. destruct ND' as (D1 & D2 & D3).
  assert (Core : forall state, (state = [] \/ In state (map one quotes ++ map one multi)) ->
    split_quoted_strings is_bytes s (map one quotes) (match escape with Some e => [e] | None => [] end) (map one multi) state =
    Ok (quoted_loop is_bytes (map one (quotes ++ multi)) (map one multi) (pairs quotes multi escape s) [] state state)).
  { intros state St. unfold split_quoted_strings.
    rewrite (proj2 (existsb_nil_false (map one quotes))) by (intros; apply NE, in_app_iff; auto).
    rewrite (proj2 (existsb_nil_false (map one multi))) by (intros; apply NE, in_app_iff; auto).
    rewrite (proj2 (is_nil_false _ _) NN').
    assert (negb (is_nil state) && negb (str_in state (map one quotes ++ map one multi)) = false) as ->.
    { destruct St as [-> |I]; auto. rewrite (proj2 (str_in_iff _ _) I). apply andb_false_r. }
    rewrite (proj2 (has_repeats_iff _) D1), (proj2 (has_repeats_iff _) D2).
    assert (existsb (fun q => str_in q (map one multi)) (map one quotes) = false) as ->.
    { apply not_true_iff_false. intros E. apply existsb_exists in E. destruct E as (q & I & J). apply str_in_iff in J. exact (D3 q I J). }
    change (quote_separators (map one quotes) (map one multi) (match escape with Some e => [e] | None => [] end)) with (seps1 quotes multi escape).
    rewrite (multisplit_pairs (seps1 quotes multi escape) s (toks quotes multi escape s)).
    - now rewrite map_app.
    - apply seps1_nonempty.
    - unfold seps1, quote_separators. rewrite app_assoc. intros H. apply NN'. now apply app_eq_nil in H.
    - apply toks_split. }
  split.
  - rewrite Core by auto. f_equal. apply scan_loop. constructor.
  - intros q I. rewrite Core by (right; rewrite <- map_app; now apply in_one). f_equal.
    destruct (scan_loop quotes multi escape is_bytes s [] ltac:(constructor)) as [_ H]. apply (H q [q]); auto. now apply chr_in_iff.
Qed.
Print Assumptions C39_scanner.
(** Bad arguments are rejected before anything is yielded, and only those. *)
Theorem C39_errors : forall is_bytes s quotes escape multiline_quotes state,
  split_quoted_strings is_bytes s quotes escape multiline_quotes state = Err ValueError <-> ~ quotes_ok quotes multiline_quotes state.
Proof.
  intros is_bytes s quotes escape multi state. split.
  - intros E Q. destruct (C39_segments is_bytes s quotes escape multi state Q) as (l & y & out & _ & _ & E'). congruence.
  - intros N. unfold split_quoted_strings.
    destruct (existsb is_nil quotes) eqn:A1; auto. destruct (existsb is_nil multi) eqn:A2; auto. destruct (is_nil (quotes ++ multi)) eqn:A3; auto.
    destruct (negb (is_nil state) && _) eqn:A4; auto. destruct (has_repeats quotes) eqn:A5; auto. destruct (has_repeats multi) eqn:A6; auto. destruct (existsb (fun q => str_in q multi) quotes) eqn:A7; auto.
    exfalso. apply N. rewrite existsb_nil_false in A1, A2. rewrite is_nil_false in A3. rewrite has_repeats_iff in A5, A6. repeat split; auto.
    + intros q I. apply in_app_iff in I. destruct I; auto.
    + apply NoDup_app_iff. repeat split; auto. intros q I J. apply not_true_iff_false in A7. apply A7. apply existsb_exists. exists q. split; auto. now apply str_in_iff.
    + destruct state; auto. right. cbn [is_nil negb andb] in A4. apply negb_false_iff in A4. now apply str_in_iff.
Qed.
Print Assumptions C39_errors.
(** The documented "escape will escape quote delimiters inside a quoted string" is false of
    multiline quote marks: the quote is closed by the escaped mark. *)
Theorem C39_multiline_escape_refuted : exists s,
  s = u "'a\'b'" /\ split_quoted_strings false s [u """"] (u "\") [u "'"] [] = Ok ([([39], [97; 92], [39]); ([], [98], []); ([39], [], [])]%N, None) /\
  split_quoted_strings false s [u "'"] (u "\") [u """"] [] = Ok ([([39], [97; 92; 39; 98], [39])]%N, None).
Proof. eexists. split; [reflexivity|]. split; vm_compute; reflexivity. Qed.
Print Assumptions C39_multiline_escape_refuted.
Example C39_witness : quotes_ok [u """"; u "'"] [u "'''"] (u "'") /\
  split_quoted_strings false (u "x' y ""a\""b'"" '''") [u """"; u "'"] (u "\") [u "'''"] (u "'")
  = Ok ([([], u "x", u "'"); ([], u " y ", []); (u """", u "a\""b'", u """"); ([], u " ", []); (u "'''", [], [])], None) /\
  split_quoted_strings false (u "a 'b" ++ [10%N] ++ u "'") [u "'"] (u "\") [] [] = Ok ([([], u "a ", [])], Some SyntaxError).
Proof.
  split; [|split; vm_compute; reflexivity]. split; [|split; [|split]].
  - intros q [<-|[<-|[<-|[]]]]; discriminate.
  - discriminate.
  - repeat constructor; cbn; intuition discriminate.
  - right. cbn. auto.
Qed.

(** * C40 *)
(** a mapping the code accepts: made of Delimiter objects (see C40_delimiter), no open
    delimiter is the close of a nesting one, no empty strings, no backslash *)
Definition mapping_ok (table : delimiters) : Prop := table_ok table /\ ~ In backslash (openers table).
Theorem C40_delimiter : forall close escape multiline quoting d, Delimiter close escape multiline quoting = Ok d <->
  d = mkDelimiter close escape multiline quoting /\ close <> [92%N] /\ (quoting = true <-> escape <> []) /\ (quoting = true \/ multiline = true).
Proof.
  intros close escape multiline quoting d. unfold Delimiter. destruct (str_eqb close backslash) eqn:B.
  - apply str_eqb_iff in B. split; [discriminate|]. intros (_ & N & _). exfalso. apply N. exact B.
  - assert (close <> [92%N]) by (intros ->; discriminate). destruct escape as [|e es], quoting, multiline; cbn; split; try discriminate; try (intros [= <-]; intuition congruence);
      intros (-> & _ & H1 & H2); try reflexivity; exfalso; intuition congruence.
Qed.
Print Assumptions C40_delimiter.
Definition closes (table : delimiters) (k : str) : option str := option_map d_close (get table k).
Definition quotes_text (table : delimiters) (k : str) : bool := match get table k with Some d => d_quoting d | None => false end.
Lemma disjoint_check table : table_ok table -> existsb (fun k => str_in k (nested_closers table)) (openers table) = false.
Proof.
  intros OK. apply not_true_iff_false. intros E. apply existsb_exists in E. destruct E as (k & I & J). apply str_in_iff in J. unfold nested_closers in J. apply in_map_iff in J.
  destruct J as ([k' d] & J1 & J2). apply filter_In in J2. destruct J2 as [J2 J3]. cbn in *. apply negb_true_iff in J3. exact (ok_disjoint _ OK k k' d I J2 J3 J1).
Qed.
Lemma split_delimiters_ok is_bytes s table state : mapping_ok table ->
  split_delimiters is_bytes s (Some table) state =
    match enter_state is_bytes table state None [] with Err e => Err e | Ok (current, stack) => Ok (delimiter_run is_bytes table s (S (S (length s))) current stack [] [] 0) end.
Proof.
  intros [OK B]. unfold split_delimiters. rewrite (proj2 (is_nil_false _ table) (ok_nonempty _ OK)), (proj2 (str_in_false _ _) B), (disjoint_check table OK). reflexivity.
Qed.
Lemma Ok_inj A (x y : A) : Ok x = Ok y -> x = y. Proof. congruence. Qed.
(** What is yielded is properly nested, for every mapping; nothing but SyntaxError ends it
    (so no pop from an empty stack, no unhandled action, no endless loop). *)
Theorem C40_nesting : forall is_bytes s table state l e, mapping_ok table ->
  split_delimiters is_bytes s (Some table) state = Ok (l, e) ->
  nested (closes table) (quotes_text table) (rev state) l /\ (e = None \/ e = Some SyntaxError).
Proof.
  intros is_bytes s table state l e M E. rewrite split_delimiters_ok in E by exact M. destruct M as [OK _].
  destruct (enter_state is_bytes table state None []) as [[cur stack]|] eqn:En; [|discriminate]. apply Ok_inj in E.
  pose proof (enter_state_corr is_bytes table OK state None [] [] cur stack (conj eq_refl eq_refl) En) as C. rewrite app_nil_r in C.
  destruct (delimiter_run_spec is_bytes table OK s (S (S (length s))) cur stack (rev state) [] [] 0 C ltac:(lia)) as (ys & e' & E' & N & Ex). rewrite E in E'. injection E' as <- <-.
  split; auto.
Qed.
Print Assumptions C40_nesting.
(** The text is preserved: for mappings without quoting delimiters, of any length. *)
Theorem C40_text_preserved_nesting_partial : forall is_bytes s table state l, mapping_ok table -> (forall k d, In (k, d) table -> d_quoting d = false) ->
  split_delimiters is_bytes s (Some table) state = Ok (l, None) -> concat (map (fun p => fst (fst p) ++ snd (fst p) ++ snd p) l) = s.
Proof.
  intros is_bytes s table state l M NQ E. change (joined l = s). rewrite split_delimiters_ok in E by exact M. destruct M as [OK _].
  destruct (enter_state is_bytes table state None []) as [[cur stack]|] eqn:En; [|discriminate]. apply Ok_inj in E.
  pose proof (enter_state_corr is_bytes table OK state None [] [] cur stack (conj eq_refl eq_refl) En) as C.
  rewrite (run_join is_bytes table OK NQ s _ _ _ _ _ _ _ C (Nat.le_0_l _) E). reflexivity.
Qed.
Print Assumptions C40_text_preserved_nesting_partial.
(** One-character delimiters, with or without quoting: exactly what a character-by-character
    scanner finds. *)
Fixpoint enter1 (t : list (chr * delimiter1)) (stack : list delimiter1) (state : list chr) : option (list delimiter1) :=
  match state with
  | [] => Some stack
  | k :: rest => match stack with
                 | Quote _ _ _ :: _ => None
                 | _ => match opens t k with Some d => enter1 t (d :: stack) rest | None => None end
                 end
  end.
Lemma enter1_spec is_bytes t (T0 : t <> []) (D : forall k k' x, In k (map fst t) -> In (k', Nest x) t -> x <> k) state : forall stack, from_table t stack ->
  enter_state is_bytes (table_of t) (map one state) (fst (state_of stack)) (snd (state_of stack)) =
  match enter1 t stack state with Some st => Ok (state_of st) | None => Err ValueError end /\
  match enter1 t stack state with Some st => from_table t st | None => True end.
Proof.
  induction state as [|k state IH]; intros stack F; cbn [enter1 map enter_state]; [split; auto; now destruct (state_of stack)|].
  change (one k) with [k]. rewrite (lookup_single is_bytes t D stack k F). unfold act.
  assert (Go : forall d, opens t k = Some d -> from_table t (d :: stack)) by (intros d O; constructor; auto; exists k; now apply opens_in).
  destruct stack as [|[x|x e m] st].
  - destruct (opens t k) as [d|] eqn:O; [|destruct (reserved t k); auto]. exact (IH [d] (Go d eq_refl)).
  - destruct (opens t k) as [d|] eqn:O; [|destruct (k =? x)%N; auto; destruct (reserved t k); auto]. exact (IH (d :: Nest x :: st) (Go d eq_refl)).
  - destruct (k =? e)%N; auto. destruct (k =? x)%N; auto. destruct (negb m && _); auto.
Qed.
Theorem C40_scanner : forall is_bytes s t state, t <> [] -> ~ In 92%N (map fst t) -> (forall k k' x, In k (map fst t) -> In (k', Nest x) t -> x <> k) ->
  split_delimiters is_bytes s (Some (table_of t)) (map (fun c => [c]) state) =
    match enter1 t [] state with Some stack => Ok (scan1 t (is_linebreak is_bytes) stack [] false s) | None => Err ValueError end.
Proof.
  intros is_bytes s t state T0 B D. rewrite split_delimiters_ok.
  - destruct (enter1_spec is_bytes t T0 D state [] ltac:(constructor)) as [E F]. cbn [state_of fst snd] in E. change (map (fun c => [c]) state) with (map one state).
    rewrite E. destruct (enter1 t [] state) as [st|]; auto. destruct (state_of st) as [cur stack] eqn:SO.
    f_equal. pose proof (run_single is_bytes t T0 D s (S (length s)) st F) as R. rewrite SO in R. exact R.
  - split; [now apply table_of_ok|]. unfold openers, table_of. rewrite map_map. cbn. intros I. apply in_map_iff in I. destruct I as ([c d] & [= E] & I). apply B. apply in_map_iff. exists (c, d). auto.
Qed.
Print Assumptions C40_scanner.
Lemma scan1_text t lb : forall s stack text e l, scan1 t lb stack text e s = (l, None) -> joined l = text ++ s.
Proof.
  induction s as [|c s IH]; intros stack text esc l E; cbn [scan1] in E.
  - destruct esc; [discriminate|]. injection E as <-. destruct text; auto. rewrite joined_cons. reflexivity.
  - assert (Plain : forall b st, scan1 t lb st (text ++ [c]) b s = (l, None) -> joined l = text ++ c :: s) by (intros b st H; rewrite (IH _ _ _ _ H), <- app_assoc; reflexivity).
    assert (Opened : forall st, (let '(l0, e) := scan1 t lb st [] false s in ((text, [c], []) :: l0, e)) = (l, None) -> joined l = text ++ c :: s).
    { intros st H. destruct (scan1 t lb st [] false s) as [l0 e0] eqn:Q. injection H as <- ->. rewrite joined_cons, (IH _ _ _ _ Q). reflexivity. }
    assert (Closed : forall st, (let '(l0, e) := scan1 t lb st [] false s in ((text, [], [c]) :: l0, e)) = (l, None) -> joined l = text ++ c :: s).
    { intros st H. destruct (scan1 t lb st [] false s) as [l0 e0] eqn:Q. injection H as <- ->. rewrite joined_cons, (IH _ _ _ _ Q). reflexivity. }
    destruct esc; [eauto|]. destruct stack as [|[x|x e m] st].
    + destruct (opens t c); [eauto|]. destruct (reserved t c); [discriminate|eauto].
    + destruct (opens t c); [eauto|]. destruct (c =? x)%N; [eauto|]. destruct (reserved t c); [discriminate|eauto].
    + destruct (c =? e)%N; [eauto|]. destruct (c =? x)%N; [eauto|]. destruct (negb m && lb c); [discriminate|eauto].
Qed.
Theorem C40_text_preserved_single_partial : forall is_bytes s t state l, t <> [] -> ~ In 92%N (map fst t) -> (forall k k' x, In k (map fst t) -> In (k', Nest x) t -> x <> k) ->
  split_delimiters is_bytes s (Some (table_of t)) (map (fun c => [c]) state) = Ok (l, None) -> concat (map (fun p => fst (fst p) ++ snd (fst p) ++ snd p) l) = s.
Proof.
  intros is_bytes s t state l T0 B D E. change (joined l = s). rewrite C40_scanner in E by auto. destruct (enter1 t [] state); [|discriminate]. apply Ok_inj in E. exact (scan1_text _ _ _ _ _ _ _ E).
Qed.
Print Assumptions C40_text_preserved_single_partial.
(** the default delimiters are such a mapping *)
Definition default1 : list (chr * delimiter1) :=
  ([(40, Nest 41); (91, Nest 93); (123, Nest 125); (39, Quote 39 92 false); (34, Quote 34 92 false)])%N.
Theorem C40_default : forall is_bytes s, split_delimiters is_bytes s None [] = Ok (scan1 default1 (is_linebreak is_bytes) [] [] false s) /\
  forall l, split_delimiters is_bytes s None [] = Ok (l, None) -> concat (map (fun p => fst (fst p) ++ snd (fst p) ++ snd p) l) = s.
Proof.
  intros is_bytes s. assert (E : split_delimiters is_bytes s None [] = split_delimiters is_bytes s (Some (table_of default1)) (map (fun c => [c]) [])) by reflexivity.
  assert (T0 : default1 <> []) by discriminate. assert (B : ~ In 92%N (map fst default1)) by (cbn; intuition discriminate).
  assert (D : forall k k' x, In k (map fst default1) -> In (k', Nest x) default1 -> x <> k).
  { intros k k' x I J. cbn in I, J. intuition (subst; try discriminate; match goal with Q : (_, Nest _) = (_, Nest x) |- _ => injection Q as <- <-; discriminate | _ => idtac end). all: congruence. }
  rewrite E, C40_scanner by auto. split; [reflexivity|]. intros l [= H]. exact (scan1_text _ _ _ _ _ _ _ H).
Qed.
Print Assumptions C40_default.
(** In general the text is not preserved: after a token that is passed over inside a quoting
    delimiter, cutting a token that overlaps the closing one starts again one character early. *)
Theorem C40_text_preserved_refuted : exists table s l, mapping_ok table /\
  split_delimiters false s (Some table) [] = Ok (l, None) /\ concat (map (fun p => fst (fst p) ++ snd (fst p) ++ snd p) l) <> s.
Proof.
  exists [(u "(", mkDelimiter (u ")") [] true false); (u "<""<", mkDelimiter (u ">"">") [] true false); (u """", mkDelimiter (u """") (u "\") true true)].
  exists (u """(<"""  ++ u "<"""). eexists. split; [|split; [vm_compute; reflexivity|vm_compute; discriminate]]. split.
  - constructor.
    + discriminate.
    + intros k d I. cbn in I. intuition (match goal with Q : (_, _) = (k, d) |- _ => injection Q as <- <- end; discriminate).
    + intros k d I. cbn in I. intuition (match goal with Q : (_, _) = (k, d) |- _ => injection Q as <- <- end; cbn in *; congruence).
    + intros k d I. cbn in I. intuition (match goal with Q : (_, _) = (k, d) |- _ => injection Q as <- <- end; cbn; auto).
    + intros k k' d I J Q. cbn in I, J. intuition (match goal with Q : (_, _) = (k', d) |- _ => injection Q as <- <- end; subst; cbn in *; congruence).
  - cbn. intuition discriminate.
Qed.
Print Assumptions C40_text_preserved_refuted.
Example C40_witness : split_delimiters false (u "a(b['\']c'])" ++ [10%N] ++ u "d") None [] =
  Ok ([(u "a", u "(", []); (u "b", u "[", []); ([], u "'", []); (u "\']c", [], u "'"); ([], [], u "]"); ([], [], u ")"); (10%N :: u "d", [], [])], None) /\
  split_delimiters false (u "a]") None [u "("; u "["] = Ok ([(u "a", [], u "]")], None) /\ split_delimiters false (u "a]") None [u "("] = Ok ([], Some SyntaxError).
Proof. repeat split; vm_compute; reflexivity. Qed.

(** What is true of all mappings: text may be repeated, but none is lost or out of order. *)
Theorem C40_nothing_lost : forall is_bytes s table state l, mapping_ok table -> split_delimiters is_bytes s (Some table) state = Ok (l, None) ->
  subseq s (concat (map (fun p => fst (fst p) ++ snd (fst p) ++ snd p) l)).
Proof.
  intros is_bytes s table state l M E. change (subseq s (joined l)). rewrite split_delimiters_ok in E by exact M. destruct M as [OK _].
  destruct (enter_state is_bytes table state None []) as [[cur stack]|] eqn:En; [|discriminate]. apply Ok_inj in E.
  pose proof (enter_state_corr is_bytes table OK state None [] [] cur stack (conj eq_refl eq_refl) En) as C.
  destruct (run_join2 is_bytes table OK False s ltac:(tauto) _ _ _ _ _ _ _ _ C (Nat.le_0_l _) E) as (X & -> & S & _). exact S.
Qed.
Print Assumptions C40_nothing_lost.
(** And it is preserved by every mapping, with quoting delimiters of any length, when no
    token in s can be passed over: each has a character in common with the closing delimiter
    or the escape of every quoting delimiter, and line breaks are allowed in all of them or
    do not occur. *)
Theorem C40_text_preserved_partial : forall is_bytes s table state l, mapping_ok table ->
  (forall w a b, In w (map fst table ++ map (fun p => d_close (snd p)) table ++ map (fun p => d_escape (snd p)) (filter (fun p => d_quoting (snd p)) table)) -> s = a ++ w ++ b ->
     forall k d, In (k, d) table -> d_quoting d = true -> exists c, In c w /\ In c (d_close d ++ d_escape d)) ->
  (forall k d, In (k, d) table -> d_multiline d = true) \/ (forall c, In c s -> is_linebreak is_bytes c = false) ->
  split_delimiters is_bytes s (Some table) state = Ok (l, None) -> concat (map (fun p => fst (fst p) ++ snd (fst p) ++ snd p) l) = s.
Proof.
  intros is_bytes s table state l M Sh NL E. change (joined l = s). rewrite split_delimiters_ok in E by exact M. destruct M as [OK _].
  destruct (enter_state is_bytes table state None []) as [[cur stack]|] eqn:En; [|discriminate]. apply Ok_inj in E.
  pose proof (enter_state_corr is_bytes table OK state None [] [] cur stack (conj eq_refl eq_refl) En) as C.
  assert (NF : forall w, In w (all_tokens is_bytes table) -> (exists a b, s = a ++ w ++ b) -> never_flushed is_bytes table w).
  { intros w I (a & b & Es). unfold all_tokens in I. apply in_app_iff in I as [I|I].
    - apply shared_never_flushed; auto. intros k d Ik Q. destruct (Sh w a b I Es k d Ik Q) as (c & I1 & I2). unfold shares_characters. apply existsb_exists. exists c. split; auto.
      apply existsb_exists. exists c. split; auto. apply N.eqb_refl.
    - exfalso. unfold newlines_of in I. destruct (forallb _ table) eqn:F; [contradiction|]. destruct NL as [NL|NL].
      + apply not_true_iff_false in F. apply F. apply forallb_forall. intros [k d] Ik. exact (NL k d Ik).
      + assert (W : exists c, w = [c] /\ is_linebreak is_bytes c = true).
        { destruct is_bytes; vm_compute in I; repeat (destruct I as [<-|I]; [eexists; split; reflexivity|]); contradiction. }
        destruct W as (c & -> & L). rewrite (NL c) in L; [discriminate|]. rewrite Es. apply in_app_iff. right. now left. }
  destruct (run_join2 is_bytes table OK True s ltac:(auto) _ _ _ _ _ _ _ _ C (Nat.le_0_l _) E) as (X & -> & _ & NX). rewrite (NX Logic.I). reflexivity.
Qed.
Print Assumptions C40_text_preserved_partial.
Example C40_long_witness :
  let q m := mkDelimiter m (u "\") true true in
  let table := [(u "'", q (u "'")); (u "'''", q (u "'''"))] in
  let s := u "a'''b'c\'''d'''''' e'\'''f'g" in
  mapping_ok table /\
  (forall w a b, In w (map fst table ++ map (fun p => d_close (snd p)) table ++ map (fun p => d_escape (snd p)) (filter (fun p => d_quoting (snd p)) table)) -> s = a ++ w ++ b ->
     forall k d, In (k, d) table -> d_quoting d = true -> exists c, In c w /\ In c (d_close d ++ d_escape d)) /\
  split_delimiters false s (Some table) [] =
    Ok ([(u "a", u "'''", []); (u "b'c\'''d", [], u "'''"); ([], u "'''", []); (u " e'\'''f'g", [], [])], None).
Proof.
  cbv zeta. split; [split|split].
  - constructor; cbn; intros; try discriminate; repeat match goal with H : _ \/ _ |- _ => destruct H | H : False |- _ => destruct H | H : (_, _) = (_, _) |- _ => injection H as <- <- end;
      subst; cbn in *; auto; try (split; discriminate); try (split; intros; congruence); try discriminate.
  - cbn. intuition discriminate.
  - intros w a b I _ k d J _. assert (Hd : d_escape d = [92%N] /\ exists t, d_close d = 39%N :: t) by (cbn in J; intuition (match goal with H : (_, _) = (k, d) |- _ => injection H as <- <- end; cbn; eauto)).
    destruct Hd as [-> [t ->]]. assert (Hw : In 39%N w \/ In 92%N w) by (cbn in I; intuition (subst w; cbn; auto)).
    destruct Hw as [Hw|Hw]; eexists; (split; [exact Hw|]); apply in_app_iff; cbn; auto.
  - vm_compute. reflexivity.
Qed.
(** Which arguments are rejected: with ValueError, before anything is yielded. *)
Theorem C40_delimiter_errors : forall close escape multiline quoting, Delimiter close escape multiline quoting = Err ValueError <->
  close = [92%N] \/ (quoting = true /\ escape = []) \/ (quoting = false /\ escape <> []) \/ (quoting = false /\ multiline = false).
Proof.
  intros close escape multiline quoting. unfold Delimiter. destruct (str_eqb close backslash) eqn:B.
  - apply str_eqb_iff in B. unfold backslash in B. tauto.
  - assert (close <> [92%N]) by (intros ->; discriminate). destruct escape as [|e es], quoting, multiline; cbn; split; intros; try discriminate; try tauto; intuition congruence.
Qed.
Print Assumptions C40_delimiter_errors.
(** the initial state must be open delimiters that can be nested in this order *)
Fixpoint state_ok (table : delimiters) (inside_quotes : bool) (state : list str) : Prop :=
  match state with
  | [] => True
  | k :: rest => inside_quotes = false /\ exists d, get table k = Some d /\ state_ok table (d_quoting d) rest
  end.
Theorem C40_errors : forall is_bytes s table state,
  (table = [] \/ In backslash (map fst table) \/ (exists k d, In k (map fst table) /\ In (k, d) (map (fun p => (d_close (snd p), snd p)) table) /\ d_quoting d = false) ->
   split_delimiters is_bytes s (Some table) state = Err ValueError) /\
  (mapping_ok table -> forall e, split_delimiters is_bytes s (Some table) state = Err e <-> e = ValueError /\ ~ state_ok table false state).
Proof.
  intros is_bytes s table state. split.
  - unfold split_delimiters. destruct (is_nil table) eqn:N; [auto|]. destruct (str_in backslash (openers table)) eqn:B; [auto|].
    destruct (existsb _ (openers table)) eqn:X; [auto|]. intros [->|[H|(k & d & I & J & Q)]]; [discriminate| |].
    + apply str_in_false in B. exfalso. exact (B H).
    + exfalso. apply not_true_iff_false in X. apply X. apply existsb_exists. exists k. split; [exact I|]. apply str_in_iff. unfold nested_closers. apply in_map_iff in J as ([k' d'] & E1 & J). cbn in E1. injection E1 as E1 E2.
      apply in_map_iff. exists (k', d'). split; [exact E1|]. apply filter_In. split; auto. cbn. subst. now rewrite Q.
  - intros M e. rewrite split_delimiters_ok by exact M. destruct M as [OK _].
    assert (G : forall st cur stack ks, corr table cur stack ks ->
      match enter_state is_bytes table st cur stack with
      | Ok _ => state_ok table (match cur with Some d => d_quoting d | None => false end) st
      | Err e => e = ValueError /\ ~ state_ok table (match cur with Some d => d_quoting d | None => false end) st
      end).
    { induction st as [|k st IH]; intros cur stack ks C; cbn [enter_state state_ok]; [exact Logic.I|].
      pose proof (lookup_has_shape is_bytes table OK cur k (corr_in_table _ _ _ _ C)) as S.
      destruct (match cur with Some d => d_quoting d | None => false end) eqn:Q.
      - destruct S as [d G T| | | | | | |]; try (split; [reflexivity|]; intros [? _]; discriminate). destruct cur as [d0|]; [|discriminate]. rewrite Q in T. discriminate.
      - assert (GP : lookup is_bytes table cur k = match get table k with Some d => Push k d | None => lookup is_bytes table cur k end).
        { destruct cur as [d0|]; cbn [lookup]; [rewrite Q|]; unfold push_or; destruct (get table k); reflexivity. }
        destruct (get table k) as [d|] eqn:Gk.
        + clear S. rewrite GP. specialize (IH _ _ _ (corr_push table _ _ _ _ _ C Gk)). cbn [state_ok]. destruct (enter_state _ _ _ _ _) as [?|?]; [split; auto; eauto|].
          destruct IH as [-> N]. split; auto. intros [_ (d' & [= <-] & H)]. auto.
        + destruct S as [d G T| | | | | | |]; try (split; [reflexivity|]; intros [_ (? & ? & _)]; discriminate). congruence. }
    specialize (G state None [] [] (conj eq_refl eq_refl)). cbn [d_quoting] in G. destruct (enter_state is_bytes table state None []) as [[c st]|e']; split.
    + discriminate.
    + intros [_ H]. contradiction.
    + intros [= <-]. exact G.
    + destruct G as [-> _]. now intros [-> _].
Qed.
Print Assumptions C40_errors.
(** C40_errors, C40_delimiter_errors: each cause has an instance, and a mapping that is accepted rejects one state and not another *)
Example C40_errors_witness :
  let curly := mkDelimiter (u "}") [] true false in let quote := mkDelimiter (u "'") (u "\") false true in
  let table := [(u "{", curly); (u "'", quote)] in
  mapping_ok table /\ state_ok table false [u "{"; u "'"] /\ ~ state_ok table false [u "'"; u "{"] /\
  split_delimiters false (u "a") (Some table) [u "'"; u "{"] = Err ValueError /\
  split_delimiters false (u "a'}b") (Some table) [u "{"; u "'"] = Ok ([(u "a", [], u "'"); ([], [], u "}"); (u "b", [], [])], None) /\
  split_delimiters false (u "a") (Some [(u "{", curly); (u "}", curly)]) [] = Err ValueError /\
  split_delimiters false (u "a") (Some [(u "\", curly)]) [] = Err ValueError /\
  Delimiter (u "'") [] true true = Err ValueError /\ Delimiter (u "}") (u "\") true false = Err ValueError.
Proof.
  cbv zeta. split; [|split; [|split]].
  - split; [|cbn; intuition discriminate]. constructor.
    + discriminate.
    + intros k d [[= <- <-]|[[= <- <-]|[]]]; split; discriminate.
    + intros k d [[= <- <-]|[[= <- <-]|[]]]; cbn; split; congruence.
    + intros k d [[= <- <-]|[[= <- <-]|[]]]; cbn; auto.
    + intros k k' d K [[= <- <-]|[[= <- <-]|[]]] Q; [|discriminate Q]. cbn in K. destruct K as [<-|[<-|[]]]; discriminate.
  - split; [reflexivity|]. exists (mkDelimiter (u "}") [] true false). split; [reflexivity|]. split; [reflexivity|]. exists (mkDelimiter (u "'") (u "\") false true). split; reflexivity.
  - intros (_ & d & E & H & _). vm_compute in E. injection E as <-. discriminate.
  - vm_compute. repeat split.
Qed.
