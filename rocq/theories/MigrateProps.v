(** C136: parse_delimiters and split_quoted_strings of big.deprecated and what replaces them. *)
From Verif Require Import PyStr PyBase PyStrProof DeprModel DeprSpec DeprProps MigrateSpec MigrateProof.
From Verif Require DelimModel DelimSpec DelimProof5 DelimProps.
Notation split_delimiters := DelimModel.split_delimiters.
Notation is_linebreak := DelimModel.is_linebreak.

Section Pairs.
  Context (ps : list pair) (OK : pairs_ok ps).
  Lemma old_run s : parse_delimiters s (Some (map (fun p => DObj (old_delimiter p)) ps)) = Ok (parse_loop (map old_delimiter ps) (closers_of (map old_delimiter ps)) s [] None [] false).
  Proof.
    destruct OK as (NE & ND & B & _). unfold parse_delimiters. destruct (map (fun p => DObj (old_delimiter p)) ps) as [|a args] eqn:E; [apply map_eq_nil in E; contradiction|]. rewrite <- E. clear E.
    assert (C : convert_delims (map (fun p => DObj (old_delimiter p)) ps) = Ok (map old_delimiter ps)).
    { apply convert_given. clear. unfold delims_given. induction ps; cbn; constructor; auto. }
    rewrite C. cbn [rbind]. fold (checked (map old_delimiter ps)).
    destruct (proj2 (checked_iff (map old_delimiter ps))) as [-> ->]; auto. split.
    - intros d I. apply in_map_iff in I. destruct I as (p & <- & I). destruct (B p I) as [B1 B2]. cbn. split; intros [= H]; contradiction.
    - rewrite map_map. cbn [d_open old_delimiter]. rewrite <- (map_map p_open (fun c => [c])). apply FinFun.Injective_map_NoDup; auto. intros x y [= H]. exact H.
  Qed.
  Lemma new_run is_bytes s : split_delimiters is_bytes s (Some (map new_delimiter ps)) [] = Ok (scan1 (t1 ps) (is_linebreak is_bytes) [] [] false s).
  Proof.
    destruct OK as (NE & _ & B & D). rewrite new_table. refine (DelimProps.C40_scanner is_bytes s (t1 ps) [] _ _ _).
    - intros H. now apply map_eq_nil in H.
    - unfold t1. rewrite map_map. cbn. intros I. apply in_map_iff in I. destruct I as (p & E & I). destruct (B p I). congruence.
    - intros k k' x I J -> . unfold t1 in I, J. rewrite map_map in I. cbn in I. apply in_map_iff in I, J. destruct I as (p & E & I), J as (p' & Q & J). injection Q as _ Q. unfold d1 in Q.
      destruct (p_quote p') eqn:Qp; [discriminate|]. injection Q as Q. destruct (D p' p J I ltac:(congruence)) as [_ H]. congruence.
  Qed.
  Lemma runs is_bytes s : exists o n, parse_delimiters s (Some (map (fun p => DObj (old_delimiter p)) ps)) = Ok o /\
    split_delimiters is_bytes s (Some (map new_delimiter ps)) [] = Ok n /\ R ps (is_linebreak is_bytes) [] o n.
  Proof.
    do 2 eexists. split; [apply old_run|]. split; [apply new_run|]. apply (sim ps (is_linebreak is_bytes) OK s [] [] false); cbn; auto; try contradiction.
  Qed.
End Pairs.

(** * parse_delimiters and split_delimiters *)
(** What the old function yields for s the new one yields, too, exactly if it understands all
    the text. *)
Theorem C136_old_to_new : forall is_bytes ps s l, pairs_ok ps ->
  parse_delimiters s (Some (map (fun p => DObj (old_delimiter p)) ps)) = Ok (l, None) ->
  (split_delimiters is_bytes s (Some (map new_delimiter ps)) [] = Ok (l, None) <-> understood ps (is_linebreak is_bytes) None l).
Proof.
  intros is_bytes ps s l OK E. destruct (runs ps OK is_bytes s) as (o & n & Eo & En & H). rewrite Eo in E. injection E as ->. rewrite En. pose proof (R_forward ps (is_linebreak is_bytes) OK _ _ _ H l eq_refl) as Q. cbn [top] in Q. rewrite <- Q.
  split; intros X; [injection X as X; exact X|now rewrite X].
Qed.
Print Assumptions C136_old_to_new.
(** What the new function yields for s the old one yields, too, exactly if everything is
    closed; otherwise the old one yields the tuples up to the last delimiter and raises
    ValueError. *)
Theorem C136_new_to_old : forall is_bytes ps s l, pairs_ok ps ->
  split_delimiters is_bytes s (Some (map new_delimiter ps)) [] = Ok (l, None) ->
  (all_closed l -> parse_delimiters s (Some (map (fun p => DObj (old_delimiter p)) ps)) = Ok (l, None)) /\
  (~ all_closed l -> parse_delimiters s (Some (map (fun p => DObj (old_delimiter p)) ps)) = Ok (up_to_last_delimiter l, Some ValueError)).
Proof.
  intros is_bytes ps s l OK E. destruct (runs ps OK is_bytes s) as (o & n & Eo & En & H). rewrite En in E. injection E as ->. rewrite Eo.
  destruct (R_back ps (is_linebreak is_bytes) _ _ _ H l eq_refl) as (_ & A & B). cbn [length] in A, B. rewrite Nat.add_0_r in A, B. unfold all_closed. split; intros C; f_equal; auto.
Qed.
Print Assumptions C136_new_to_old.
(** In every case what one yields is the beginning of what the other yields; when the new one
    raises SyntaxError, the old one has yielded at least as much. *)
Theorem C136_same_start : forall is_bytes ps s, pairs_ok ps -> exists lo eo ln en,
  parse_delimiters s (Some (map (fun p => DObj (old_delimiter p)) ps)) = Ok (lo, eo) /\ (eo = None \/ eo = Some ValueError) /\
  split_delimiters is_bytes s (Some (map new_delimiter ps)) [] = Ok (ln, en) /\ (en = None \/ en = Some SyntaxError) /\
  ((exists more, ln = lo ++ more) \/ (exists more, lo = ln ++ more)) /\ (en = Some SyntaxError -> exists more, lo = ln ++ more).
Proof.
  intros is_bytes ps s OK. destruct (runs ps OK is_bytes s) as ([lo eo] & [ln en] & Eo & En & H). exists lo, eo, ln, en.
  pose proof (C91_errors (map (fun p => DObj (old_delimiter p)) ps) s) as C. rewrite Eo in C. repeat split; auto.
  - tauto.
  - exact (R_errors _ _ _ _ _ H).
  - exact (R_prefix _ _ _ _ _ H).
  - intros ->. exact (R_stops _ _ _ _ _ H ln eq_refl).
Qed.
Print Assumptions C136_same_start.
(** The same with the default delimiters. *)
Lemma default_ok : pairs_ok default_pairs.
Proof.
  repeat split.
  - discriminate.
  - cbn. repeat constructor; cbn; intuition discriminate.
  - cbn in H. intuition (subst; discriminate).
  - cbn in H. intuition (subst; discriminate).
  - cbn in H, H0. intuition (subst; cbn in *; congruence).
  - cbn in H, H0. intuition (subst; cbn in *; congruence).
Qed.
Theorem C136_default : forall is_bytes s l,
  (parse_delimiters s None = Ok (l, None) ->
   (split_delimiters is_bytes s None [] = Ok (l, None) <-> understood default_pairs (is_linebreak is_bytes) None l)) /\
  (split_delimiters is_bytes s None [] = Ok (l, None) ->
   (all_closed l -> parse_delimiters s None = Ok (l, None)) /\
   (~ all_closed l -> parse_delimiters s None = Ok (up_to_last_delimiter l, Some ValueError))).
Proof.
  intros is_bytes s l.
  change (parse_delimiters s None) with (parse_delimiters s (Some (map (fun p => DObj (old_delimiter p)) default_pairs))).
  change (split_delimiters is_bytes s None []) with (split_delimiters is_bytes s (Some (map new_delimiter default_pairs)) []).
  split; intros H; [exact (C136_old_to_new _ _ _ _ default_ok H)|exact (C136_new_to_old _ _ _ _ default_ok H)].
Qed.
Print Assumptions C136_default.
(** They do not always agree: an unclosed delimiter, a backslash outside quotes, a line break
    inside them. *)
Theorem C136_delimiters_refuted :
  (parse_delimiters (u "a(b") None = Ok ([(u "a", u "(", [])], Some ValueError) /\
   split_delimiters false (u "a(b") None [] = Ok ([(u "a", u "(", []); (u "b", [], [])], None)) /\
  (parse_delimiters (u "a\b") None = Ok ([(u "a\b", [], [])], None) /\
   split_delimiters false (u "a\b") None [] = Ok ([], Some SyntaxError)) /\
  (parse_delimiters (u "'" ++ [10%N] ++ u "'") None = Ok ([([], u "'", []); ([10%N], [], u "'")], None) /\
   split_delimiters false (u "'" ++ [10%N] ++ u "'") None [] = Ok ([([], u "'", [])], Some SyntaxError)).
Proof. repeat split; vm_compute; reflexivity. Qed.
Print Assumptions C136_delimiters_refuted.
Example C136_delimiters_witness : let l := [(u "a", u "(", []); (u "b", u "'", []); (u "\')", [], u "'"); ([], [], u ")"); (u "c", [], [])] in
  parse_delimiters (u "a(b'\')')c") None = Ok (l, None) /\ understood default_pairs (is_linebreak false) None l /\ all_closed l /\
  pairs_ok [mkPair 60 62 false false; mkPair 124 124 true true]%N.
Proof.
  cbn zeta. split; [vm_compute; reflexivity|]. split; [|split; [reflexivity|]].
  - cbn [understood]. repeat split; try (cbn; intuition discriminate).
  - repeat split.
    + discriminate.
    + cbn. repeat constructor; cbn; intuition discriminate.
    + cbn in H. intuition (subst; discriminate).
    + cbn in H. intuition (subst; discriminate).
    + cbn in H, H0. intuition (subst; cbn in *; congruence).
    + cbn in H, H0. intuition (subst; cbn in *; congruence).
Qed.

(** * split_quoted_strings *)
From Verif Require Import MigrateProof2.
From Verif Require DelimProof2.
Notation new_split_quoted_strings := DelimModel.split_quoted_strings.
(** With one-character quote marks, without triple quotes: if there is no escape character
    outside the quotes and no line break inside them, the new function yields the same
    segments, quote marks and text apart. *)
Definition quotes_understood (is_bytes : bool) (escape : chr) (old : list (bool * str)) : Prop :=
  (forall t, In (false, t) old -> ~ In escape t) /\ (forall t c, In (true, t) old -> In c t -> is_linebreak is_bytes c = false).
Lemma quoted_strings is_bytes s quotes escape : quotes <> [] -> NoDup quotes -> ~ In escape quotes ->
  let old := fst (split_quoted_strings_old (map (fun c : chr => [c]) quotes) false [escape] s) in
  quotes_understood is_bytes escape old ->
  snd (split_quoted_strings_old (map (fun c : chr => [c]) quotes) false [escape] s) = None /\
  exists l, new_split_quoted_strings is_bytes s (map (fun c : chr => [c]) quotes) [escape] [] [] = Ok (l, None) /\ old = map retag l /\ Forall plain_unquoted l.
Proof.
  intros NE ND E old [H1 H2]. unfold split_quoted_strings_old in *.
  destruct (loop_scan quotes escape E (length s) s (Nat.le_refl _)) as [L _]. specialize (L [] ltac:(intros []) H1). unfold old in *. clear old. rewrite L in *. cbn [fst snd] in *. split; auto.
  destruct (DelimProps.C39_scanner is_bytes s quotes (Some escape) []) as [Sc _]; rewrite ?app_nil_r; auto. cbn [map] in Sc. rewrite deliver_all in Sc.
  - eexists. split; [exact Sc|]. split.
    + rewrite map_map. apply map_ext. intros [a b c d]. reflexivity.
    + apply Forall_forall. intros t I. apply in_map_iff in I. destruct I as (g & <- & I). cbn. intros Lg. exact (scan_trail quotes escape (length s) s (Nat.le_refl _) None [] ltac:(discriminate) g I Lg).
  - intros g I. pose proof (scan_inside quotes escape (length s) s (Nat.le_refl _) None [] ltac:(discriminate) g I) as Q. unfold DelimProps.newline_inside. rewrite Q. destruct (SplitModel.is_nil (DelimSpec.lead g)) eqn:Lg; auto. cbn [negb andb].
    rewrite andb_comm. apply andb_false_iff. left. apply not_true_iff_false. intros X. apply existsb_exists in X. destruct X as (c & J & X).
    rewrite (H2 (DelimSpec.lead g ++ DelimSpec.body g ++ DelimSpec.trail g) c) in X; [discriminate| |rewrite !in_app_iff; auto]. apply in_map_iff. exists g. split; auto. unfold shown. now rewrite Lg.
Qed.
Theorem C136_quoted_strings : forall is_bytes s quotes escape, quotes <> [] -> NoDup quotes -> ~ In escape quotes ->
  let old := fst (split_quoted_strings_old (map (fun c : chr => [c]) quotes) false [escape] s) in
  (forall t, In (false, t) old -> ~ In escape t) -> (forall t c, In (true, t) old -> In c t -> is_linebreak is_bytes c = false) ->
  snd (split_quoted_strings_old (map (fun c : chr => [c]) quotes) false [escape] s) = None /\
  exists l, new_split_quoted_strings is_bytes s (map (fun c : chr => [c]) quotes) [escape] [] [] = Ok (l, None) /\
    old = map (fun t : str * str * str => let '(opening, text, closing) := t in (nonempty opening, opening ++ text ++ closing)) l.
Proof.
  intros is_bytes s quotes escape NE ND E old H1 H2. destruct (quoted_strings is_bytes s quotes escape NE ND E (conj H1 H2)) as (A & l & B & C & _). split; auto. exists l. split; auto.
  unfold old. rewrite C. apply map_ext. intros [[[|a lq] t] tq]; reflexivity.
Qed.
Print Assumptions C136_quoted_strings.
(** Otherwise they may differ: an escaped quote mark outside quotes; a line break inside;
    the default calls, with triple quotes. *)
Theorem C136_quoted_strings_refuted :
  (split_quoted_strings_old [[34%N]; u "'"] false (u "\") (u "a\'b'") = ([(false, u "a\"); (true, u "'b'")], None) /\
   new_split_quoted_strings false (u "a\'b'") [[34%N]; u "'"] (u "\") [] [] = Ok ([([], u "a\'b", []); (u "'", [], [])], None)) /\
  (split_quoted_strings_old [[34%N]; u "'"] false (u "\") (u "'" ++ [10%N] ++ u "'") = ([(true, u "'" ++ [10%N] ++ u "'")], None) /\
   new_split_quoted_strings false (u "'" ++ [10%N] ++ u "'") [[34%N]; u "'"] (u "\") [] [] = Ok ([], Some SyntaxError)) /\
  (split_quoted_strings_old [[34%N]; u "'"] true (u "\") (u "'''a''' ") = ([(true, u "'''a'''"); (false, u " ")], None) /\
   new_split_quoted_strings false (u "'''a''' ") [[34%N]; u "'"] (u "\") [] [] = Ok ([(u "'", [], u "'"); (u "'", u "a", u "'"); (u "'", [], u "'"); ([], u " ", [])], None)).
Proof. repeat split; vm_compute; reflexivity. Qed.
Print Assumptions C136_quoted_strings_refuted.
Example C136_quoted_strings_witness :
  split_quoted_strings_old [[34%N]; u "'"] false (u "\") (u "a'b\'c'""""'z") = ([(false, u "a"); (true, u "'b\'c'"); (true, u """"""); (true, u "'z")], None) /\
  new_split_quoted_strings false (u "a'b\'c'""""'z") [[34%N]; u "'"] (u "\") [] [] = Ok ([([], u "a", []); (u "'", u "b\'c", u "'"); (u """", [], u """"); (u "'", u "z", [])], None).
Proof. split; vm_compute; reflexivity. Qed.


(** * lines_strip_comments and lines_strip_line_comments *)
From Verif Require Import LinesModel LinesProof LinesSpec2 SplitProof LinesProof3.
Ltac no_quotes quotes E := match type of E with context [@is_nil ?A (map ?f quotes)] => replace (@is_nil A (map f quotes)) with false in E by (destruct quotes; [congruence|reflexivity]) end.
Ltac no_quotes_goal quotes := match goal with |- context [@is_nil ?A (map ?f quotes)] => replace (@is_nil A (map f quotes)) with false by (destruct quotes; [congruence|reflexivity]) end.
(** Without quotes: the same lines and infos, and the same exception. *)
Theorem C136_strip_comments_no_quotes : forall is_bytes start_column tab_width (markers : list str) escape backslash triple_quotes l up,
  markers <> [] -> (forall m, In m markers -> m <> []) ->
  modify is_bytes start_column tab_width (StripComments markers [] escape []) (l, up) = lines_strip_comments_old is_bytes markers [] backslash false triple_quotes (l, up).
Proof.
  intros is_bytes sc tw markers escape bs tq l up N NE0. assert (NE : SplitProof.nonempty markers) by (apply Forall_forall; exact NE0). cbn [modify]. unfold lines_strip_comments_old. destruct (is_nil markers); auto. cbn [is_nil andb fst snd]. f_equal.
  induction l as [|[i line] l IH]; [cbn; now destruct up|]. cbn [comments_loop for_each is_nil andb].
  pose proof (find_keep is_bytes markers NE line [([], line, [])] ltac:(repeat constructor; cbn; auto) [] []) as F. unfold strip_comment_old at 1. cbn [is_nil].
  replace [(false, line)] with (map retag [([], line, [])]) by (cbn; now rewrite app_nil_r).
  destruct (find_comment markers line [([], line, [])] [] [] []) as [s|st lq tq0|] eqn:Ef; [| |contradiction].
  - destruct F as (kept & -> & E & Ns). cbn [rbind]. cbn [map retag snd concat app] in E. rewrite !app_nil_r in E. rewrite E. rewrite app_length. replace (Z.of_nat (length kept + length s) - Z.of_nat (length kept))%Z with (Z.of_nat (length s)) by lia.
    destruct (Z.of_nat (length s) =? 0)%Z eqn:Z0; [destruct s; [congruence|cbn in Z0; lia]|]. destruct (clip_same i kept s) as [->|]; [|contradiction]. destruct (clip_trailing i (kept ++ s) (ByInt (Z.of_nat (length s)))); cbn [rmap]; [now rewrite IH|reflexivity].
  - destruct F as [-> ->]. cbn [rbind map retag snd concat app]. rewrite !app_nil_r. rewrite Z.sub_diag. cbn [Z.eqb]. rewrite IH.
    assert (lq = []) as ->; [|reflexivity]. cbn [find_comment is_nil negb] in Ef. destruct (re_split _ _ _) as [[|[x w] r] y]; cbn in Ef; congruence.
Qed.
Print Assumptions C136_strip_comments_no_quotes.
(** With one-character quote marks, rstrip=False, triple_quotes=False: if the new function accepts
    the lines, and understands the quotes in each, the old one yields the same. *)
Theorem C136_strip_comments : forall is_bytes start_column tab_width (markers : list str) quotes escape l up l',
  (forall m, In m markers -> m <> []) -> quotes <> [] -> NoDup quotes -> ~ In escape quotes ->
  (forall p, In p l -> quotes_understood is_bytes escape (fst (split_quoted_strings_old (map (fun c : chr => [c]) quotes) false [escape] (snd p)))) ->
  modify is_bytes start_column tab_width (StripComments markers (map (fun c : chr => [c]) quotes) [escape] []) (l, up) = Ok (l', None) ->
  lines_strip_comments_old is_bytes markers (map (fun c : chr => [c]) quotes) [escape] false false (l, up) = Ok (l', None).
Proof.
  intros is_bytes sc tw markers quotes escape l up l' NE0 Nq ND Ne U E. assert (NE : SplitProof.nonempty markers) by (apply Forall_forall; exact NE0). cbn [modify] in E. unfold lines_strip_comments_old. destruct (is_nil markers); [discriminate|]. cbn [fst snd].
  no_quotes quotes E. cbn [andb] in E. destruct (split_quoted_strings is_bytes [120%N] _ _ _ _) as [g|]; [|discriminate]. clear g. injection E as E. f_equal. revert l' E.
  induction l as [|[i line] l IH]; intros l' E; [cbn in E |- *; destruct up; congruence|]. cbn [comments_loop for_each] in E |- *. no_quotes quotes E. cbn [andb] in E.
  destruct (quoted_strings is_bytes line quotes escape Nq ND Ne (U (i, line) (or_introl eq_refl))) as (S & segs & En & So & Pl). change DelimModel.split_quoted_strings with split_quoted_strings in En. rewrite En in E.
  assert (J : concat (map snd (map retag segs)) = line).
  { rewrite <- So. destruct (C92_joins_partial (map (fun c : chr => [c]) quotes) false [escape] line (or_introl eq_refl)) as (o & Eo & Jo). rewrite Eo. exact Jo. }
  unfold strip_comment_old at 1. no_quotes_goal quotes. destruct (split_quoted_strings_old (map (fun c : chr => [c]) quotes) false [escape] line) as [o x]. cbn [fst snd] in S, So. subst o x.
  pose proof (find_keep is_bytes markers NE line segs Pl [] []) as F.
  assert (U' : forall p, In p l -> quotes_understood is_bytes escape (fst (split_quoted_strings_old (map (fun c : chr => [c]) quotes) false [escape] (snd p)))) by (intros p I; apply U; now right).
  destruct (find_comment markers line segs [] [] []) as [s|st lq tq0|] eqn:Ef; [| |contradiction].
  - destruct F as (kept & -> & Es & Ns). cbn [rbind]. rewrite J in Es. clear J. subst line. rewrite app_length. replace (Z.of_nat (length kept + length s) - Z.of_nat (length kept))%Z with (Z.of_nat (length s)) by lia.
    destruct (Z.of_nat (length s) =? 0)%Z eqn:Z0; [destruct s; [congruence|cbn in Z0; lia]|]. destruct (clip_same i kept s) as [C|]; [|contradiction]. rewrite C in E. destruct (clip_trailing i (kept ++ s) (ByInt (Z.of_nat (length s)))); cbn [rmap]; [|discriminate].
    unfold yield_ in *. injection E as <- E. rewrite (IH U' (fst (comments_loop is_bytes markers (map (fun c : chr => [c]) quotes) [escape] [] [] l up))); [reflexivity|]. destruct (comments_loop is_bytes markers _ _ _ _ l up). cbn in *. now subst.
  - destruct F as [-> ->]. cbn [rbind]. rewrite J, Z.sub_diag. cbn [Z.eqb]. cbn [str_in existsb] in E. destruct (negb (is_nil lq) && is_nil tq0); [discriminate|].
    unfold yield_ in *. injection E as <- E. rewrite (IH U' (fst (comments_loop is_bytes markers (map (fun c : chr => [c]) quotes) [escape] [] [] l up))); [reflexivity|]. destruct (comments_loop is_bytes markers _ _ _ _ l up). cbn in *. now subst.
Qed.
Print Assumptions C136_strip_comments.
(** A quote that is not closed before the end of the line is an error only in the new one; and
    the old one also strips white space before the comment if rstrip=True. *)
Theorem C136_strip_comments_refuted :
  (modify false 1 8 (StripComments [u "#"] [u "'"] (u "\") []) ([new_info 1 1 (u "it's", [])], None) = Ok ([], Some SyntaxError) /\
   lines_strip_comments_old false [u "#"] [u "'"] (u "\") false false ([new_info 1 1 (u "it's", [])], None) = Ok ([new_info 1 1 (u "it's", [])], None)) /\
  (exists i j, modify false 1 8 (StripComments [u "#"] [u "'"] (u "\") []) ([new_info 1 1 (u "a #b", [])], None) = Ok ([(i, u "a ")], None) /\
   lines_strip_comments_old false [u "#"] [u "'"] (u "\") true false ([new_info 1 1 (u "a #b", [])], None) = Ok ([(j, u "a")], None)).
Proof. split; [split; vm_compute; reflexivity|]. do 2 eexists. split; vm_compute; reflexivity. Qed.
Print Assumptions C136_strip_comments_refuted.
Example C136_strip_comments_witness : let l := [new_info 1 1 (u "x = '#' # it's", []); new_info 1 2 (u "y", [])] in
  (forall p, In p l -> quotes_understood false 92%N (fst (split_quoted_strings_old [u "'"] false (u "\") (snd p)))) /\
  exists i j, modify false 1 8 (StripComments [u "#"] [u "'"] (u "\") []) (l, None) = Ok ([(i, u "x = '#' "); (j, u "y")], None).
Proof.
  cbn zeta. split; [|do 2 eexists; vm_compute; reflexivity]. intros p [<-|[<-|[]]]; (match goal with |- quotes_understood _ _ ?x => let v := eval vm_compute in x in change x with v end); unfold quotes_understood; cbn [In]; split.
  all: intros t; try (intros c); intros; repeat match goal with
    | H : _ \/ _ |- _ => destruct H
    | H : False |- _ => destruct H
    | H : (_, _) = (_, _) |- _ => first [discriminate H | injection H; clear H; intros; subst]
    end; subst; try (intros H; cbn in H; intuition discriminate).
  all: cbn in *; repeat match goal with H : _ \/ _ |- _ => destruct H end; subst; try reflexivity; contradiction.
Qed.
