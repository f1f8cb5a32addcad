(** C139: split_quoted_strings and split_delimiters, given the same quote marks, find the same quoted strings. *)
From Verif Require Import PyBase PyStr DelimModel DelimSpec DelimProof2 DelimProof5 DelimProps QuoteAgreeSpec QuoteAgreeProof.

(** {q: Delimiter(q, escape=escape, multiline=..., quoting=True)}: not multiline for quotes, multiline for multiline_quotes *)
Definition quote_delimiters (quotes multiline_quotes : list chr) (escape : chr) : list (str * delimiter) :=
  map (fun q => ([q], mkDelimiter [q] [escape] false true)) quotes ++ map (fun q => ([q], mkDelimiter [q] [escape] true true)) multiline_quotes.
Definition marks_of (l : list chr) : list str := map (fun c => [c]) l.

Lemma table_quotes quotes multi e : table_of (quote_table quotes multi e) = quote_delimiters quotes multi e.
Proof. unfold table_of, quote_table, quote_delimiters. now rewrite map_app, !map_map. Qed.
Lemma keys quotes multi e : map fst (quote_table quotes multi e) = quotes ++ multi.
Proof. unfold quote_table. rewrite map_app, !map_map. cbn. now rewrite !map_id. Qed.
Lemma no_nest quotes multi e k x : ~ In (k, Nest x) (quote_table quotes multi e).
Proof. unfold quote_table. rewrite in_app_iff, !in_map_iff. intros [(q & [=] & _)|(q & [=] & _)]. Qed.
Lemma table_not_nil quotes multi e : quotes ++ multi <> [] -> quote_table quotes multi e <> [].
Proof. intros N E. apply N. apply (f_equal (map fst)) in E. now rewrite keys in E. Qed.
Lemma scan1_start is_bytes s quotes multi e : quotes ++ multi <> [] -> ~ In 92%N (quotes ++ multi) ->
  split_delimiters is_bytes s (Some (quote_delimiters quotes multi e)) [] = Ok (scan1 (quote_table quotes multi e) (is_linebreak is_bytes) [] [] false s).
Proof.
  intros N B. rewrite <- table_quotes. change (@nil str) with (map (fun c : chr => [c]) []).
  rewrite C40_scanner; [reflexivity|now apply table_not_nil|now rewrite keys|]. intros k k' x _ I. now apply no_nest in I.
Qed.
Lemma scan1_state is_bytes s quotes multi e q : quotes ++ multi <> [] -> ~ In 92%N (quotes ++ multi) -> NoDup (quotes ++ multi) -> In q (quotes ++ multi) ->
  split_delimiters is_bytes s (Some (quote_delimiters quotes multi e)) [[q]] =
    Ok (scan1 (quote_table quotes multi e) (is_linebreak is_bytes) [Quote q e (chr_in q multi)] [] false s).
Proof.
  intros N B ND I. rewrite <- table_quotes. change [[q]] with (map (fun c : chr => [c]) [q]).
  rewrite C40_scanner; [|now apply table_not_nil|now rewrite keys|intros k k' x _ J; now apply no_nest in J].
  cbn [enter1]. rewrite opens_table by auto.
  pose proof (proj2 (chr_in_iff q (quotes ++ multi)) I) as X. destruct (chr_in q _); [reflexivity|discriminate].
Qed.

(** With no escape character in the text they are the same function, whatever the text and
    the quote marks: they yield the same, and raise SyntaxError for the same texts. *)
Theorem C139_without_escapes : forall is_bytes s quotes multiline_quotes escape,
  quotes ++ multiline_quotes <> [] -> NoDup (quotes ++ multiline_quotes) -> ~ In 92%N (quotes ++ multiline_quotes) -> ~ In escape (quotes ++ multiline_quotes) ->
  is_linebreak is_bytes escape = false -> ~ In escape s ->
  (exists l e, split_delimiters is_bytes s (Some (quote_delimiters quotes multiline_quotes escape)) [] = Ok (l, e) /\
    split_quoted_strings is_bytes s (marks_of quotes) [escape] (marks_of multiline_quotes) [] = Ok (segments_of None l e, e)) /\
  forall q, In q (quotes ++ multiline_quotes) ->
  exists l e, split_delimiters is_bytes s (Some (quote_delimiters quotes multiline_quotes escape)) [[q]] = Ok (l, e) /\
    split_quoted_strings is_bytes s (marks_of quotes) [escape] (marks_of multiline_quotes) [q] = Ok (segments_of (Some []) l e, e).
Proof.
  intros is_bytes s quotes multi e N ND B E L H. destruct (C39_scanner is_bytes s quotes (Some e) multi ND N) as [S1 S2].
  assert (P : pairs_ok is_bytes multi e s) by (intros a x b ->; exfalso; apply H; rewrite in_app_iff; cbn; auto).
  split.
  - eexists _, _. split; [rewrite scan1_start by auto; rewrite <- surjective_pairing; reflexivity|]. etransitivity; [exact S1|]. f_equal.
    exact (agree is_bytes quotes multi e E L N ND (length s) s (Nat.le_refl _) P None [] [] eq_refl (or_intror H)).
  - intros q I. eexists _, _. split; [rewrite scan1_state by auto; rewrite <- surjective_pairing; reflexivity|]. etransitivity; [exact (S2 q I)|]. f_equal.
    exact (agree is_bytes quotes multi e E L N ND (length s) s (Nat.le_refl _) P (Some (q, [])) [Quote q e (chr_in q multi)] [] (conj I (conj eq_refl (fun _ => eq_refl))) (or_intror H)).
Qed.
Print Assumptions C139_without_escapes.

(** With escapes: if in the text no escape character stands before a line break or a multiline
    quote mark, what split_delimiters accepts split_quoted_strings accepts with the same result. *)
Theorem C139_delimiters_to_strings : forall is_bytes s quotes multiline_quotes escape l,
  quotes ++ multiline_quotes <> [] -> NoDup (quotes ++ multiline_quotes) -> ~ In 92%N (quotes ++ multiline_quotes) -> ~ In escape (quotes ++ multiline_quotes) ->
  is_linebreak is_bytes escape = false ->
  (forall a x b, s = a ++ [escape; x] ++ b -> is_linebreak is_bytes x = false /\ ~ In x multiline_quotes) ->
  (split_delimiters is_bytes s (Some (quote_delimiters quotes multiline_quotes escape)) [] = Ok (l, None) ->
   split_quoted_strings is_bytes s (marks_of quotes) [escape] (marks_of multiline_quotes) [] = Ok (segments_of None l None, None)) /\
  forall q, In q (quotes ++ multiline_quotes) ->
  split_delimiters is_bytes s (Some (quote_delimiters quotes multiline_quotes escape)) [[q]] = Ok (l, None) ->
  split_quoted_strings is_bytes s (marks_of quotes) [escape] (marks_of multiline_quotes) [q] = Ok (segments_of (Some []) l None, None).
Proof.
  intros is_bytes s quotes multi e l N ND B E L P. destruct (C39_scanner is_bytes s quotes (Some e) multi ND N) as [S1 S2]. split.
  - rewrite scan1_start by auto. intros D. apply Ok_inj in D. etransitivity; [exact S1|]. f_equal.
    pose proof (agree is_bytes quotes multi e E L N ND (length s) s (Nat.le_refl _) P None [] [] eq_refl) as A.
    rewrite D in A. exact (A (or_introl eq_refl)).
  - intros q I. rewrite scan1_state by auto. intros D. apply Ok_inj in D. etransitivity; [exact (S2 q I)|]. f_equal.
    pose proof (agree is_bytes quotes multi e E L N ND (length s) s (Nat.le_refl _) P (Some (q, [])) [Quote q e (chr_in q multi)] [] (conj I (conj eq_refl (fun _ => eq_refl)))) as A.
    rewrite D in A. exact (A (or_introl eq_refl)).
Qed.
Print Assumptions C139_delimiters_to_strings.

(** And the other way, if moreover the text does not end with an escape character: what
    split_quoted_strings accepts split_delimiters accepts, unless there is an escape character
    outside the quotes. *)
Theorem C139_strings_to_delimiters : forall is_bytes s quotes multiline_quotes escape segments,
  quotes ++ multiline_quotes <> [] -> NoDup (quotes ++ multiline_quotes) -> ~ In 92%N (quotes ++ multiline_quotes) -> ~ In escape (quotes ++ multiline_quotes) ->
  is_linebreak is_bytes escape = false ->
  (forall a x b, s = a ++ [escape; x] ++ b -> is_linebreak is_bytes x = false /\ ~ In x multiline_quotes) -> (forall a, s <> a ++ [escape]) ->
  split_quoted_strings is_bytes s (marks_of quotes) [escape] (marks_of multiline_quotes) [] = Ok (segments, None) ->
  (forall text, In ([], text, []) segments -> ~ In escape text) ->
  exists l, split_delimiters is_bytes s (Some (quote_delimiters quotes multiline_quotes escape)) [] = Ok (l, None) /\ segments = segments_of None l None.
Proof.
  intros is_bytes s quotes multi e segs N ND B E L P La H O. destruct (C39_scanner is_bytes s quotes (Some e) multi ND N) as [S1 _].
  pose proof (eq_trans (eq_sym S1) H) as H'. apply Ok_inj in H'. clear H. rename H' into H.
  assert (X := converse is_bytes quotes multi e E L N ND (length s) s (Nat.le_refl _) P La None [] [] eq_refl ltac:(discriminate)).
  assert (A := agree is_bytes quotes multi e E L N ND (length s) s (Nat.le_refl _) P None [] [] eq_refl).
  rewrite scan1_start by auto. specialize (X ltac:(exact (f_equal snd H))). specialize (X ltac:(intros t I; apply (O t); refine (eq_ind _ (fun p => In _ (fst p)) I _ H))).
  specialize (A (or_introl X)). pose proof (eq_trans (eq_sym H) A) as A'. clear A. rename A' into A.
  destruct (scan1 _ _ [] [] false s) as [l ex]. cbn [fst snd] in *. subst ex. exists l. split; auto. now injection A.
Qed.
Print Assumptions C139_strings_to_delimiters.

(** Where they do differ: an escape outside quotes, an escaped line break, an escaped multiline
    quote mark, an escape at the very end. *)
Theorem C139_refuted :
  (split_delimiters false (u "\") (Some (quote_delimiters (u "'") [] 92%N)) [] = Ok ([], Some SyntaxError) /\
   split_quoted_strings false (u "\") (marks_of (u "'")) (u "\") [] [] = Ok ([([], u "\", [])], None)) /\
  (split_delimiters false (u "'\" ++ [10%N] ++ u "'") (Some (quote_delimiters (u "'") [] 92%N)) [] = Ok ([([], u "'", []); (u "\" ++ [10%N], [], u "'")], None) /\
   split_quoted_strings false (u "'\" ++ [10%N] ++ u "'") (marks_of (u "'")) (u "\") [] [] = Ok ([], Some SyntaxError)) /\
  (split_delimiters false (u "'a\'b'") (Some (quote_delimiters [] (u "'") 92%N)) [] = Ok ([([], u "'", []); (u "a\'b", [], u "'")], None) /\
   split_quoted_strings false (u "'a\'b'") [] (u "\") (marks_of (u "'")) [] = Ok ([(u "'", u "a\", u "'"); ([], u "b", []); (u "'", [], [])], None)) /\
  (split_delimiters false (u "'a\") (Some (quote_delimiters (u "'") [] 92%N)) [] = Ok ([([], u "'", [])], Some SyntaxError) /\
   split_quoted_strings false (u "'a\") (marks_of (u "'")) (u "\") [] [] = Ok ([(u "'", u "a\", [])], None)).
Proof. repeat split; vm_compute; reflexivity. Qed.
Print Assumptions C139_refuted.

Example C139_witness :
  split_delimiters false (u "x='a\'b' y=""c'd""") (Some (quote_delimiters (u "'") [34%N] 92%N)) [] =
    Ok ([(u "x=", u "'", []); (u "a\'b", [], u "'"); (u " y=", u """", []); (u "c'd", [], u """")], None) /\
  split_quoted_strings false (u "x='a\'b' y=""c'd""") (marks_of (u "'")) (u "\") (marks_of [34%N]) [] =
    Ok ([([], u "x=", []); (u "'", u "a\'b", u "'"); ([], u " y=", []); (u """", u "c'd", u """")], None) /\
  segments_of None [(u "x=", u "'", []); (u "a\'b", [], u "'"); (u " y=", u """", []); (u "c'd", [], u """")] None =
    [([], u "x=", []); (u "'", u "a\'b", u "'"); ([], u " y=", []); (u """", u "c'd", u """")].
Proof. repeat split; vm_compute; reflexivity. Qed.
(** without escapes: an error, and a start inside a quote *)
Example C139_without_escapes_witness :
  split_delimiters false (u "a'b" ++ [10%N] ++ u "c'd") (Some (quote_delimiters (u "'") [34%N] 92%N)) [] = Ok ([(u "a", u "'", [])], Some SyntaxError) /\
  split_quoted_strings false (u "a'b" ++ [10%N] ++ u "c'd") (marks_of (u "'")) (u "\") (marks_of [34%N]) [] = Ok ([([], u "a", [])], Some SyntaxError) /\
  split_delimiters false (u "b'c") (Some (quote_delimiters (u "'") [34%N] 92%N)) [u "'"] = Ok ([(u "b", [], u "'"); (u "c", [], [])], None) /\
  split_quoted_strings false (u "b'c") (marks_of (u "'")) (u "\") (marks_of [34%N]) (u "'") = Ok ([([], u "b", u "'"); ([], u "c", [])], None).
Proof. repeat split; vm_compute; reflexivity. Qed.
