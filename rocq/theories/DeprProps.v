(** C91-C93: the functions of big.deprecated. *)
From Verif Require Import DeprModel DeprSpec DeprProof DeprProof2 PyStrProof DelimProof LinesProof LinesProof3 LinesSpec LinesSpec2 LinesProps2 SplitSpec SplitProof.

(** * C91 *)
Lemma convert_given args ds : delims_given args ds <-> convert_delims args = Ok ds.
Proof.
  split.
  - induction 1 as [|a d args ds H _ IH]; auto. destruct a as [d'|s|]; cbn [convert_delims]; [subst; now rewrite IH| |contradiction]. destruct H as (x & y & -> & ->). now rewrite IH.
  - revert ds. induction args as [|a args IH]; intros ds E; cbn [convert_delims] in E; [injection E as <-; constructor|].
    destruct a as [d'|s|]; [|destruct s as [|x [|y [|]]]; try discriminate|discriminate]; (destruct (convert_delims args) as [l|]; [|discriminate]); injection E as <-; constructor; auto; eauto; now apply IH.
Qed.
Lemma has_repeats_iff l : has_repeats l = false <-> NoDup l.
Proof.
  induction l as [|x l IH]; cbn [has_repeats]; [split; [constructor|auto]|]. rewrite orb_false_iff, IH. unfold str_in. split.
  - intros [A B]. constructor; auto. intros I. apply not_true_iff_false in A. apply A. apply existsb_exists. exists x. split; auto. now apply str_eqb_eq.
  - intros H. inversion H; subst. split; auto. apply not_true_iff_false. intros A. apply existsb_exists in A. destruct A as (y & I & E). apply str_eqb_eq in E. now subst.
Qed.
Definition checked (ds : list delim) : bool :=
  existsb (fun d => str_eqb (d_open d) [backslash_chr] || str_eqb (d_close d) [backslash_chr]) ds.
Lemma checked_iff ds : checked ds = false /\ has_repeats (map d_open ds) = false <-> legal_delims ds.
Proof.
  rewrite has_repeats_iff. unfold legal_delims, checked. apply and_iff_compat_r. rewrite <- not_true_iff_false, existsb_exists. split.
  - intros H d I. split; intros E; apply H; exists d; (split; [exact I|]); apply orb_true_iff; [left|right]; now apply str_eqb_eq.
  - intros H (d & I & E). apply orb_true_iff in E. rewrite !str_eqb_eq in E. destruct (H d I) as [A B]. destruct E as [E|E]; [exact (A E)|exact (B E)].
Qed.
(** It succeeds exactly on well nested texts, and yields the text cut at the delimiters. *)
Theorem C91_well_nested : forall args ds s l, args <> [] -> delims_given args ds -> legal_delims ds ->
  (parse_delimiters s (Some args) = Ok (l, None) <-> exists toks, nested ds None toks /\ map tok_chr toks = s /\ l = tuples [] toks).
Proof.
  intros args ds s l N G Lg. assert (OK : delims_ok ds) by exact Lg. apply convert_given in G. apply checked_iff in Lg. destruct Lg as [L1 L2]. unfold parse_delimiters. destruct args as [|a args]; [congruence|]. rewrite G. cbn [rbind].
  fold (checked ds). rewrite L1, L2. split.
  - intros [= E]. destruct (proj1 (loop_sound ds OK s [] None [] (good_base ds))) as [H|(toks & U & M & H)]; [rewrite E in H; discriminate|]. inversion U; subst. exists toks. rewrite H in E. injection E as <-. auto.
  - intros (toks & Ne & <- & ->). now rewrite (loop_complete ds OK).
Qed.
Print Assumptions C91_well_nested.
(** with the default delimiters, too *)
Theorem C91_default : forall s l, parse_delimiters s None = Ok (l, None) <-> exists toks, nested documented_default None toks /\ map tok_chr toks = s /\ l = tuples [] toks.
Proof.
  intros s l. change documented_default with default_delims. assert (E : parse_delimiters s None = parse_delimiters s (Some (map DObj default_delims))) by reflexivity. rewrite E. apply C91_well_nested.
  - discriminate.
  - apply convert_given. reflexivity.
  - apply checked_iff. split; reflexivity.
Qed.
Print Assumptions C91_default.
(** On other texts it raises ValueError, after yielding tuples that make up the start of s. *)
Theorem C91_errors : forall args s, match parse_delimiters s (Some args) with
  | Ok (l, e) => (e = None \/ e = Some ValueError) /\ (exists rest, s = concat (map (fun t => fst (fst t) ++ snd (fst t) ++ snd t) l) ++ rest /\ (e = None -> rest = [])) /\
                 args <> [] /\ exists ds, delims_given args ds /\ legal_delims ds
  | Err e => (args = [] \/ ~ exists ds, delims_given args ds /\ legal_delims ds) /\
             (e = TypeError /\ In DOther args \/ e = ValueError)
  end.
Proof.
  intros args s. unfold parse_delimiters. destruct args as [|a args]; [auto|]. destruct (convert_delims (a :: args)) as [ds|e] eqn:C; cbn [rbind].
  - fold (checked ds). assert (Bad : ~ (checked ds = false /\ has_repeats (map d_open ds) = false) -> ~ exists ds, delims_given (a :: args) ds /\ legal_delims ds).
    { intros H (ds' & G & Lg). apply convert_given in G. assert (ds' = ds) by congruence. subst ds'. apply H. now apply checked_iff. }
    destruct (checked ds) eqn:L1; [split; auto; right; apply Bad; intros [? _]; discriminate|]. destruct (has_repeats _) eqn:L2; [split; auto; right; apply Bad; intros [_ ?]; discriminate|].
    assert (Lg : legal_delims ds) by (apply checked_iff; auto).
    destruct (parse_loop ds (closers_of ds) s [] None [] false) as [l e] eqn:E. pose proof (loop_prefix ds s [] None [] false) as [rest P]. rewrite E in P. cbn [app fst] in P.
    destruct (proj1 (loop_sound ds Lg s [] None [] (good_base ds))) as [H|(toks & U & M & H)]; rewrite E in H.
    + cbn in H. subst e. split; auto. split; [exists rest; split; auto; discriminate|]. split; [discriminate|]. exists ds. split; auto. now apply convert_given.
    + injection H as -> ->. split; auto. split; [exists []; split; auto; rewrite tuples_text, app_nil_r; cbn; auto|]. split; [discriminate|]. exists ds. split; auto. now apply convert_given.
  - split; [right; intros (ds & G & _); apply convert_given in G; congruence|]. clear s. revert e C. remember (a :: args) as l eqn:H. clear H. induction l as [|b l IH]; intros e C; cbn [convert_delims] in C; [discriminate|].
    assert (K : forall f, rmap (A := list delim) (B := list delim) f (convert_delims l) = Err e -> e = TypeError /\ In DOther (b :: l) \/ e = ValueError).
    { intros f E. destruct (convert_delims l) as [|e'] eqn:El; [discriminate|]. cbn in E. injection E as ->. destruct (IH e eq_refl) as [[-> I]|]; auto. left. split; auto. now right. }
    destruct b as [d|w|]; [eapply K; exact C| |injection C as <-; left; split; auto; now left].
    destruct w as [|x [|y [|z w]]]; try (injection C as <-; auto; fail). eapply K; exact C.
Qed.
Print Assumptions C91_errors.
(** Each tuple: something is not empty, and not both open and close; when the last tuple has
    neither, s ends in plain text. *)
Lemma tuples_shape l : forall text, Forall (fun t : triple => (fst (fst t) <> [] \/ snd (fst t) <> [] \/ snd t <> []) /\ (snd (fst t) = [] \/ snd t = [])) (tuples text l).
Proof.
  induction l as [|[c|c|c] l IH]; intros text; cbn [tuples]; auto.
  - destruct text; constructor; auto. cbn. split; auto. left. discriminate.
  - constructor; auto. cbn. split; auto. right. left. discriminate.
  - constructor; auto. cbn. split; auto. right. right. discriminate.
Qed.
Lemma parse_shape ds closers s : forall text d stack q, Forall (fun t : triple => (fst (fst t) <> [] \/ snd (fst t) <> [] \/ snd t <> []) /\ (snd (fst t) = [] \/ snd t = [])) (fst (parse_loop ds closers s text d stack q)).
Proof.
  induction s as [|c s IH]; intros text d stack q; cbn [parse_loop].
  - destruct stack; [|constructor]. destruct text; cbn; constructor; auto. cbn. split; auto. left. discriminate.
  - destruct q; auto. destruct (is_close d c).
    + cbn [yield_ fst]. constructor; [cbn; split; auto; right; right; discriminate|]. destruct stack; [constructor|auto].
    + destruct (cur_nested d && _); [constructor|]. destruct (if cur_nested d then opener ds c else None); auto. cbn [yield_ fst]. constructor; [cbn; split; auto; right; left; discriminate|auto].
Qed.
Theorem C91_tuples : forall s o l e, parse_delimiters s o = Ok (l, e) ->
  Forall (fun t => (fst (fst t) <> [] \/ snd (fst t) <> [] \/ snd t <> []) /\ (snd (fst t) = [] \/ snd t = [])) l.
Proof.
  intros s o l e E. assert (K : forall r : result (list delim), rbind r (fun ds => if existsb (fun d => str_eqb (d_open d) [backslash_chr] || str_eqb (d_close d) [backslash_chr]) ds then Err ValueError
      else if has_repeats (map d_open ds) then Err ValueError else Ok (parse_loop ds (closers_of ds) s [] None [] false)) = Ok (l, e) ->
      Forall (fun t => (fst (fst t) <> [] \/ snd (fst t) <> [] \/ snd t <> []) /\ (snd (fst t) = [] \/ snd t = [])) l).
  { intros [ds|]; cbn; [|discriminate]. destruct (existsb _ ds); [discriminate|]. destruct (has_repeats _); [discriminate|]. intros [= H]. pose proof (parse_shape ds (closers_of ds) s [] None [] false) as P. rewrite H in P. exact P. }
  unfold parse_delimiters in E. destruct o as [[|a args]|]; [discriminate|exact (K _ E)|exact (K _ E)].
Qed.
Print Assumptions C91_tuples.
Example C91_witness : parse_delimiters (u "a(b['\')']c)d") None =
  Ok ([(u "a", u "(", []); (u "b", u "[", []); ([], u "'", []); (u "\')", [], u "'"); ([], [], u "]"); (u "c", [], u ")"); (u "d", [], [])], None) /\
  (exists l, parse_delimiters (u "a(b]") None = Ok (l, Some ValueError)) /\
  delims_given [DStr (u "<>"); DObj (mkDelim (u "|") (u "|") true false)] [mkDelim (u "<") (u ">") false true; mkDelim (u "|") (u "|") true false] /\
  legal_delims [mkDelim (u "<") (u ">") false true; mkDelim (u "|") (u "|") true false].
Proof.
  split; [vm_compute; reflexivity|]. split; [eexists; vm_compute; reflexivity|]. split; [apply convert_given; reflexivity|]. apply checked_iff. split; reflexivity.
Qed.

(** * C92 *)
Theorem C92_split_quoted_strings : forall quotes triple_quotes backslash s l e,
  split_quoted_strings_old quotes triple_quotes backslash s = (l, e) <->
  quoted_segments (fun c => In [c] quotes) triple_quotes (fun c => backslash = [c]) s l e.
Proof.
  intros quotes tq bs s l e. split.
  - intros E. destruct (segs_total quotes tq bs s) as (l' & e' & H). pose proof (proj1 (loop_segs quotes tq bs s l' e' H)) as E'. unfold split_quoted_strings_old in E. rewrite E in E'. injection E' as <- <-. exact H.
  - intros H. exact (proj1 (loop_segs quotes tq bs s l e H)).
Qed.
Print Assumptions C92_split_quoted_strings.
Lemma segs_error quote tq esc s l e : quoted_segments quote tq esc s l (Some e) -> e = RuntimeError /\ tq = true /\ exists t q, s = t ++ [q] /\ quote q.
Proof.
  intros H. remember (Some e) as o eqn:Eo. induction H as [|p s l e' P1 P2 P3 H IH D|s mark s' body rest l e' O H1 H2 IH|s mark s' O H1|q s l e' T Q N H IH|p q T Q P]; try discriminate.
  - destruct (IH Eo) as (A & B & t & q & -> & C). split; auto. split; auto. exists (p ++ t), q. now rewrite app_assoc.
  - destruct (IH Eo) as (A & B & t & q & -> & C). split; auto. split; auto. destruct O as (q' & _ & -> & _). assert (Es : s' = body ++ mark ++ t ++ [q]) by (clear - H1; induction H1; cbn; congruence).
    exists (mark ++ body ++ mark ++ t), q. rewrite Es. now rewrite <- !app_assoc.
  - destruct (IH Eo) as (A & B & t & q' & -> & C). split; auto. split; auto. exists (q :: q :: t), q'. auto.
  - injection Eo as <-. split; auto. split; auto. eauto.
Qed.
(** Joining the segments gives s, if triple quotes are off or s does not end with a quote mark. *)
Theorem C92_joins_partial : forall quotes triple_quotes backslash s, triple_quotes = false \/ (forall t c, s = t ++ [c] -> ~ In [c] quotes) ->
  exists l, split_quoted_strings_old quotes triple_quotes backslash s = (l, None) /\ concat (map snd l) = s.
Proof.
  intros quotes tq bs s G. destruct (segs_total quotes tq bs s) as (l & [e|] & H).
  - exfalso. apply segs_error in H. destruct H as (_ & T & t & q & E & Q). destruct G as [G|G]; [congruence|]. exact (G t q E Q).
  - exists l. split; [now apply C92_split_quoted_strings|]. eapply segs_text; eauto.
Qed.
Print Assumptions C92_joins_partial.
Theorem C92_final_quote_refuted : split_quoted_strings_old [[34%N]; u "'"] true (u "\") (u "abc'") = ([], Some RuntimeError) /\
  split_quoted_strings_old [[34%N]; u "'"] true (u "\") (u "'x' 'y''") = ([(true, u "'x'"); (false, u " "); (true, u "'y'")], Some RuntimeError).
Proof. split; vm_compute; reflexivity. Qed.
Print Assumptions C92_final_quote_refuted.
Example C92_witness : split_quoted_strings_old [[34%N]; u "'"] true (u "\") (u "a'b\'c'''d'''e''f'''g''h\''''z") =
  ([(false, u "a"); (true, u "'b\'c'"); (true, u "''"); (false, u "d"); (true, u "'''e''f'''"); (false, u "g"); (true, u "''"); (false, u "h\"); (true, u "''''z")], None) /\
  exists l, split_quoted_strings_old [[34%N]; u "'"] false (u "\") (u "''x'") = (l, None).
Proof. split; [vm_compute; reflexivity|eexists; vm_compute; reflexivity]. Qed.
