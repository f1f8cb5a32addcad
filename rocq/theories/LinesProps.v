(** lines and the lines modifiers: the properties C41-C44 and C57-C60. *)
From Verif Require Import LinesModel LinesSpec SplitSpec SplitProof SplitProof2 SplitProof3 SplitProps PyStrProof RegexProof PyBaseProof.
From Verif Require Import DelimSpec DelimProof DelimProof4 DelimProps LinesProof LinesProof2 LinesProof3.
Require Import ZifyBool ZifyNat.

(** * C41 *)
(** the separators lines(s, separators) splits at *)
Definition line_separators (is_bytes : bool) (o : option (list str)) : list str :=
  match o with None | Some [] => if is_bytes then bytes_linebreaks else str_linebreaks | Some l => l end.
Definition lines_args_ok (o : option (list str)) : Prop := match o with Some l => forall w, In w l -> w <> [] | None => True end.
Lemma line_separators_ok is_bytes o : lines_args_ok o -> valid (Some (line_separators is_bytes o)).
Proof.
  intros H. split; cbn [seps_of].
  - destruct o as [[|w l]|], is_bytes; discriminate.
  - apply Forall_forall. intros w I ->. destruct o as [[|x l]|], is_bytes; cbn in I; try (apply (H [] I eq_refl); fail); intuition discriminate.
Qed.
Lemma number_lines_nth sc n l : forall k p, nth_error (number_lines sc n l) k = Some p -> exists q, nth_error l k = Some q /\ p = new_info sc (n + Z.of_nat k) q.
Proof.
  revert n. induction l as [|x l IH]; intros n k p; [destruct k; discriminate|]. destruct k as [|k]; cbn [number_lines nth_error].
  - intros [= <-]. exists x. rewrite Z.add_0_r. auto.
  - intros H. apply IH in H. destruct H as (q & Q & ->). exists q. split; auto. f_equal. lia.
Qed.
Lemma number_lines_map sc n l : map (fun p : pair => (snd p, i_end (fst p))) (number_lines sc n l) = l.
Proof. revert n. induction l as [|[a b] l IH]; intros n; cbn; auto. now rewrite IH. Qed.
Lemma new_info_line sc n q : i_line (fst (new_info sc n q)) = fst q ++ snd q.
Proof. unfold new_info. cbn. destruct (snd q); cbn; [now rewrite app_nil_r|auto]. Qed.
Definition numbered (start_column line_number : Z) (L : list pair) : Prop :=
  forall k p, nth_error L k = Some p -> i_number (fst p) = (line_number + Z.of_nat k)%Z /\ i_column (fst p) = start_column /\
    i_line (fst p) = snd p ++ i_end (fst p) /\ i_leading (fst p) = [] /\ i_trailing (fst p) = [] /\ i_indent (fst p) = 0%Z.
Lemma number_lines_numbered sc n l : numbered sc n (number_lines sc n l).
Proof. intros k p H. apply number_lines_nth in H. destruct H as (q & _ & ->). rewrite new_info_line. repeat split. Qed.
Theorem C41_lines_of_text : forall is_bytes start_column s separators line_number, lines_args_ok separators ->
  exists L l y, lines is_bytes start_column (Text s separators) line_number = Ok L /\
    splits true (line_separators is_bytes separators) None s l y /\
    map (fun p => (snd p, i_end (fst p))) L = l ++ [(y, [])] /\
    numbered start_column line_number L /\
    concat (map (fun p => i_line (fst p)) L) = s.
Proof.
  intros is_bytes sc s o n OK. pose proof (line_separators_ok is_bytes o OK) as V.
  destruct (C32_multisplit_is_the_split s (Some (line_separators is_bytes o)) AsPairs (Some (-1)%Z) false true V) as (l & y & Sp & E). cbn in Sp.
  exists (number_lines sc n (l ++ [(y, [])])), l, y. split; [|split; [exact Sp|split; [apply number_lines_map|split; [apply number_lines_numbered|]]]].
  - unfold lines. change (match o with None | Some [] => linebreaks_of is_bytes | Some l0 => l0 end) with (line_separators is_bytes o). rewrite E.
    f_equal. f_equal. change (present AsPairs l y) with (map (fun p : str * str => Two (fst p) (snd p)) l ++ [Two y []]). rewrite flat_map_app. cbn [flat_map app]. f_equal.
    clear. induction l as [|[a b] l IH]; cbn; auto. now rewrite IH.
  - rewrite <- (splits_concat _ _ _ _ _ _ Sp). clear. revert n. induction l as [|[a b] l IH]; intros n.
    + cbn. now rewrite !app_nil_r.
    + cbn [app number_lines map concat]. rewrite IH, new_info_line. cbn [fst snd]. unfold alternating. cbn [flat_map app concat fst snd]. now rewrite <- app_assoc.
Qed.
Print Assumptions C41_lines_of_text.
Theorem C41_lines_of_iterable : forall is_bytes start_column line_number,
  (forall l, exists L, lines is_bytes start_column (Strings l) line_number = Ok L /\ map (fun p => (snd p, i_end (fst p))) L = map (fun s => (s, [])) l /\ numbered start_column line_number L) /\
  (forall l, exists L, lines is_bytes start_column (Pairs l) line_number = Ok L /\ map (fun p => (snd p, i_end (fst p))) L = l /\ numbered start_column line_number L).
Proof.
  intros. split; intros l; eexists; (split; [reflexivity|]); (split; [apply number_lines_map|apply number_lines_numbered]).
Qed.
Print Assumptions C41_lines_of_iterable.
Example C41_witness : lines_args_ok None /\ rmap (map (fun p => (i_number (fst p), snd p, i_end (fst p)))) (lines false 1 (Text (u "ab" ++ [13; 10; 10]%N ++ u "c") None) 5) =
  Ok [(5%Z, u "ab", [13; 10]%N); (6%Z, [], [10%N]); (7%Z, u "c", [])].
Proof. split; [exact I|reflexivity]. Qed.

(** * C42 *)
Lemma clip_all_accounted i q : clip_all i = Ok q -> accounted q /\ i_leading (fst q) = [] /\ i_column (fst q) = (i_column i - Z.of_nat (length (i_leading i)))%Z.
Proof.
  unfold clip_all. destruct (ends_with _ _) eqn:E; [|discriminate]. intros [= <-]. split; [|auto]. unfold accounted. cbn [fst snd i_leading i_trailing i_end i_line app].
  apply ends_with_iff in E. destruct E as [r E]. destruct (i_end i) as [|c t] eqn:Z; [cbn; apply app_nil_r|]. cbn [is_nil]. rewrite E, slice_to_neg by discriminate. reflexivity.
Qed.
Lemma step_accounted tab_width p q : step tab_width False p q -> accounted p -> accounted q.
Proof.
  destruct 1 as [i s r N|i r s|i line q A|n p|i line F]; unfold accounted; cbn [fst snd i_leading i_trailing i_end i_line set_indent]; intros H; auto; try contradiction.
  - now rewrite <- H, <- !app_assoc.
  - now rewrite <- H, <- !app_assoc.
  - apply (clip_all_accounted _ _ A).
Qed.
Lemma steps_accounted tab_width p q : steps tab_width False p q -> accounted p -> accounted q.
Proof. induction 1; auto. intros. eauto using step_accounted. Qed.
Lemma from_forall tw tabs (P : pair -> Prop) l l' : (forall p q, steps tw tabs p q -> P p -> P q) -> from tw tabs l l' -> Forall P l -> Forall P l'.
Proof.
  intros H (m & rest & Pm & F) W. assert (Wm : Forall P m) by (apply (Forall_app P m rest), (Permutation_Forall Pm); auto).
  clear - H F Wm. induction F; inversion Wm; subst; constructor; eauto.
Qed.
Definition no_sorting (ms : list modifier) : Prop := Forall (fun m => ~ sorts m) ms.
Lemma sub_trans tw tabs l l1 : sub tw tabs l l1 -> forall l2, sub tw tabs l1 l2 -> sub tw tabs l l2.
Proof.
  induction 1 as [l|p q l l' S B IH|p l l' B IH]; intros l2 S2.
  - inversion S2; subst; constructor.
  - inversion S2; subst; [apply sub_stop|apply sub_yield; eauto using steps_trans|apply sub_drop; auto].
  - apply sub_drop; auto.
Qed.
Lemma sub_refl tw tabs l : sub tw tabs l l.
Proof. induction l; [apply sub_stop|apply sub_yield; auto; constructor]. Qed.
Lemma pipeline_ok is_bytes sc tw (tabs : Prop) ms : (In ConvertTabs ms -> tabs) -> forall l up, Forall (wf sc tw) l -> match pipeline is_bytes sc tw ms (l, up) with
  | Err e => e = ValueError
  | Ok (l', e) => (no_sorting ms -> sub tw tabs l l') /\ from tw tabs l l' /\ ends_fine tw e up end.
Proof.
  induction ms as [|m ms IH]; intros Tb l up W; cbn [pipeline].
  - split; [intros; apply sub_refl|]. split; [apply from_refl|left; auto].
  - pose proof (modify_ok is_bytes sc tw tabs m l up (fun H => Tb (or_introl H)) W) as M. destruct (modify is_bytes sc tw m (l, up)) as [[l1 e1]|e]; auto. destruct M as (M1 & M2 & M3).
    pose proof (from_wf _ _ _ _ _ M2 W) as W1. specialize (IH (fun H => Tb (or_intror H)) l1 e1 W1). destruct (pipeline is_bytes sc tw ms (l1, e1)) as [[l2 e2]|e]; auto. destruct IH as (I1 & I2 & I3). split; [|split].
    + intros N. inversion N; subst. eapply sub_trans; eauto.
    + eapply from_trans; eauto.
    + destruct I3 as [->|I3]; auto. right. exact I3.
Qed.
Lemma lines_fresh is_bytes sc src n L : lines is_bytes sc src n = Ok L -> exists l, L = number_lines sc n l.
Proof. destruct src as [s o|l|l]; cbn [lines]; [destruct (multisplit _ _ _ _ _ _ _); [|discriminate]|..]; intros [= <-]; eauto. Qed.
Lemma number_lines_forall sc n l (P : pair -> Prop) : (forall k q, P (new_info sc k q)) -> Forall P (number_lines sc n l).
Proof. intros H. revert n. induction l; intros n; cbn; constructor; auto. Qed.
Lemma new_info_fresh sc k q : fresh sc (new_info sc k q).
Proof. split; [reflexivity|]. split; [reflexivity|]. rewrite new_info_line. unfold new_info. cbn. apply ends_with_iff. eauto. Qed.
Lemma new_info_accounted sc k q : accounted (new_info sc k q).
Proof. unfold accounted. rewrite new_info_line. reflexivity. Qed.
Lemma process_ok is_bytes sc tw (tabs : Prop) src n ms l e : (In ConvertTabs ms -> tabs) -> process is_bytes sc tw src n ms = Ok (l, e) -> exists L, lines is_bytes sc src n = Ok L /\
  (no_sorting ms -> sub tw tabs L l) /\ from tw tabs L l /\ ends_fine tw e None.
Proof.
  intros Tb. unfold process. destruct (lines is_bytes sc src n) as [L|] eqn:EL; [|discriminate]. intros E. exists L. split; auto.
  destruct (lines_fresh _ _ _ _ _ EL) as [l0 ->].
  pose proof (pipeline_ok is_bytes sc tw tabs ms Tb (number_lines sc n l0) None (number_lines_forall _ _ _ _ (fun k q => fresh_wf _ _ _ (new_info_fresh sc k q)))) as P. now rewrite E in P.
Qed.
(** Nothing is lost: leading + line + trailing + end is the original line, whatever is done. *)
Theorem C42_accounted : forall is_bytes start_column tab_width source line_number modifiers l e, ~ In ConvertTabs modifiers ->
  process is_bytes start_column tab_width source line_number modifiers = Ok (l, e) -> Forall accounted l.
Proof.
  intros is_bytes sc tw src n ms l e NT E. destruct (process_ok is_bytes sc tw False src n ms l e NT E) as (L & EL & _ & F & _).
  destruct (lines_fresh _ _ _ _ _ EL) as [l0 ->]. eapply from_forall; [|exact F|apply number_lines_forall; intros; apply new_info_accounted]. intros p q. apply steps_accounted.
Qed.
Print Assumptions C42_accounted.
(** Each pair yielded is one of the original lines, with its own line, number and line break;
    in the original order unless lines_sort is used. *)
Lemma from_identity tw tabs L l : from tw tabs L l -> exists rest, Permutation (map identity L) (map identity l ++ rest).
Proof.
  intros (m & rest & P & F). exists (map identity rest). rewrite P, map_app. apply Permutation_app_tail. clear - F. induction F; cbn; auto.
  rewrite (steps_identity _ _ _ _ H). now constructor.
Qed.
Lemma sub_identity tw tabs L l : sub tw tabs L l -> subsequence (map identity l) (map identity L).
Proof. induction 1; cbn; [constructor|rewrite (steps_identity _ _ _ _ H); now constructor|now constructor]. Qed.
Theorem C42_same_lines : forall is_bytes start_column tab_width source line_number modifiers l e,
  process is_bytes start_column tab_width source line_number modifiers = Ok (l, e) ->
  exists L, lines is_bytes start_column source line_number = Ok L /\
    (exists dropped, Permutation (map identity L) (map identity l ++ dropped)) /\
    (no_sorting modifiers -> subsequence (map identity l) (map identity L)) /\
    ((0 < tab_width)%Z -> e <> Some AssertionError).
Proof.
  intros is_bytes sc tw src n ms l e E. destruct (process_ok is_bytes sc tw True src n ms l e (fun _ => I) E) as (L & EL & S & F & X). exists L. split; auto. split; [eapply from_identity; eauto|].
  split; [intros N; eapply sub_identity; eauto|]. intros T. destruct X as [->|(x & -> & Fx)]; [discriminate|]. intros [= ->]. exact (Fx T eq_refl).
Qed.
Print Assumptions C42_same_lines.
Example C42_witness : process false 1 8 (Text (u "  x = 'a#b' # c  " ++ [10%N] ++ u "   ") None) 1 [StripComments [u "#"] [u "'"] (u "\") []; Strip None; StripIndent] =
  Ok ([(mkInfo (u "  x = 'a#b' # c  " ++ [10%N]) 1 3 (u "  ") (u " # c  ") [10%N] 1, u "x = 'a#b'"); (mkInfo (u "   ") 2 1 [] (u "   ") [] 0, [])], None).
Proof. vm_compute. reflexivity. Qed.

(** * C43 *)
Definition has_tab (s : str) : Prop := In 9%N s.
Lemma expandtabs_id tw s : ~ has_tab s -> expandtabs tw s = s.
Proof.
  unfold expandtabs. generalize 0%Z. induction s as [|c s IH]; intros pos N; auto. cbn. destruct (c =? 9)%N eqn:E; [apply N.eqb_eq in E; exfalso; apply N; left; auto|].
  f_equal. apply IH. intros H. apply N. now right.
Qed.
Definition col_ok (sc : Z) (p : pair) : Prop := ~ has_tab (i_line (fst p)) -> accounted p /\ i_column (fst p) = (sc + Z.of_nat (length (i_leading (fst p))))%Z.
Lemma step_col sc tw p q : step tw True p q -> col_ok sc p -> col_ok sc q.
Proof.
  destruct 1 as [i s r N|i r s|i line q A|n p|i line F]; unfold col_ok, accounted; cbn [fst snd i_leading i_trailing i_end i_line i_column set_indent]; intros H NT; auto.
  - destruct (H NT) as [H1 H2]. split; [rewrite <- H1, <- !app_assoc; auto|]. rewrite expandtabs_id; [rewrite app_length; lia|].
    intros T. apply NT. rewrite <- H1. unfold has_tab in *. rewrite !in_app_iff. auto.
  - destruct (H NT) as [H1 H2]. split; [rewrite <- H1, <- !app_assoc; auto|auto].
  - destruct (clip_all_accounted _ _ A) as (A1 & A2 & A3). destruct (clip_all_end _ _ A) as (_ & E2 & _). rewrite E2 in NT. destruct (H NT) as [_ H2]. split; auto. rewrite A2, A3. cbn. lia.
  - destruct (H NT) as [H1 H2]. rewrite expandtabs_id; auto. intros T. apply NT. rewrite <- H1. unfold has_tab in *. rewrite !in_app_iff. auto.
Qed.
Theorem C43_column_partial : forall is_bytes start_column tab_width source line_number modifiers l e,
  process is_bytes start_column tab_width source line_number modifiers = Ok (l, e) ->
  Forall (fun p => ~ In 9%N (i_line (fst p)) -> i_column (fst p) = (start_column + Z.of_nat (length (i_leading (fst p))))%Z) l.
Proof.
  intros is_bytes sc tw src n ms l e E. destruct (process_ok is_bytes sc tw True src n ms l e (fun _ => I) E) as (L & EL & _ & F & _).
  destruct (lines_fresh _ _ _ _ _ EL) as [l0 ->]. eapply Forall_impl; [|eapply (from_forall _ _ (col_ok sc)); [|exact F|]].
  - intros p H NT. apply H. exact NT.
  - intros p q S. induction S; auto. intros. eauto using step_col.
  - apply number_lines_forall. intros k q _. split; [apply new_info_accounted|]. cbn. lia.
Qed.
Print Assumptions C43_column_partial.
(** Exactly, for every line with or without tabs: [pieces] is what was clipped at the left, one piece at a time.  Each is measured from a tab stop; and
    when the rest of a line is clipped, the number of characters is subtracted, not of columns. *)
Definition widths (tab_width : Z) (pieces : list str) : Z := fold_right Z.add 0%Z (map (fun s => Z.of_nat (length (expandtabs tab_width s))) pieces).
Lemma widths_app tw a b : widths tw (a ++ b) = (widths tw a + widths tw b)%Z.
Proof. induction a as [|x a IH]; cbn [app]; [reflexivity|]. unfold widths in *. cbn [map fold_right]. rewrite IH. lia. Qed.
Definition column_is (sc tw : Z) (p : pair) : Prop := exists pieces,
  i_leading (fst p) = concat pieces /\ i_column (fst p) = (sc + widths tw pieces)%Z \/
  snd p = [] /\ i_leading (fst p) = [] /\ i_column (fst p) = (sc + widths tw pieces - Z.of_nat (length (concat pieces)))%Z.
Lemma step_column sc tw p q : step tw True p q -> column_is sc tw p -> column_is sc tw q.
Proof.
  destruct 1 as [i s r N|i r s|i line q A|n p|i line F]; unfold column_is; cbn [fst snd i_leading i_trailing i_end i_line i_column set_indent]; intros (pieces & H).
  - destruct H as [(L & C)|(E & _)]; [|destruct s; [cbn in E; congruence|discriminate]]. exists (pieces ++ [s]). left. rewrite concat_app, widths_app. cbn [concat]. rewrite app_nil_r, L, C. split; [reflexivity|].
    unfold widths at 3. cbn [map fold_right]. lia.
  - exists pieces. destruct H as [H|(E & H)]; [left; exact H|right]. apply app_eq_nil in E as (-> & _). auto.
  - exists pieces. right. destruct (clip_all_accounted _ _ A) as (_ & A2 & A3). destruct (clip_all_end _ _ A) as (_ & _ & _ & E4 & _). split; [exact E4|]. split; [exact A2|]. rewrite A3.
    destruct H as [(L & C)|(_ & L & C)]; rewrite L, C; [lia|cbn; lia].
  - exists pieces. exact H.
  - exists pieces. destruct H as [H|(-> & H)]; [left; exact H|right; auto].
Qed.
Theorem C43_column_exact : forall is_bytes start_column tab_width source line_number modifiers l e,
  process is_bytes start_column tab_width source line_number modifiers = Ok (l, e) ->
  Forall (fun p => exists pieces,
    i_leading (fst p) = concat pieces /\ i_column (fst p) = (start_column + widths tab_width pieces)%Z \/
    snd p = [] /\ i_leading (fst p) = [] /\ i_column (fst p) = (start_column + widths tab_width pieces - Z.of_nat (length (concat pieces)))%Z) l.
Proof.
  intros is_bytes sc tw src n ms l e E. destruct (process_ok is_bytes sc tw True src n ms l e (fun _ => I) E) as (L & EL & _ & F & _).
  destruct (lines_fresh _ _ _ _ _ EL) as [l0 ->]. change (Forall (column_is sc tw) l). eapply (from_forall _ _ (column_is sc tw)); [|exact F|].
  - intros p q S. induction S; auto. intros. eauto using step_column.
  - apply number_lines_forall. intros k q. exists []. left. unfold new_info. cbn. split; [reflexivity|lia].
Qed.
Print Assumptions C43_column_exact.
(** With tabs it is false: clipping the rest of a line subtracts the number of characters, not
    columns, that had been added; and clipping twice measures the second part from column 0. *)
Theorem C43_tab_refuted :
  process false 1 8 (Text (9%N :: u "x") None) 1 [Strip None; StripComments [u "x"] [] [] []] = Ok ([(mkInfo (9%N :: u "x") 1 8 [] (9%N :: u "x") [] 0, [])], None) /\
  (exists p, process false 1 8 (Text (32%N :: 9%N :: u "x") None) 1 [Strip (Some [u " "]); StripIndent] = Ok ([p], None) /\
     i_leading (fst p) = [32; 9]%N /\ i_column (fst p) = 10%Z /\ length (expandtabs 8 [32; 9]%N) = 8).
Proof. split; [vm_compute; reflexivity|]. eexists. vm_compute. repeat split. Qed.
Print Assumptions C43_tab_refuted.

(** * C44 *)
Definition untouched (start_column : Z) (p : pair) : Prop :=
  i_leading (fst p) = [] /\ i_column (fst p) = start_column /\ exists r, i_line (fst p) = r ++ i_end (fst p).
Lemma untouched_fresh sc p : untouched sc p -> fresh sc p.
Proof. intros (A & B & C). repeat split; auto. now apply ends_with_iff. Qed.
(** the indents, and where IndentationError is raised *)
Theorem C44_exact : forall is_bytes start_column tab_width l l' e, (0 < tab_width)%Z -> Forall (untouched start_column) l ->
  modify is_bytes start_column tab_width StripIndent (l, None) = Ok (l', e) ->
  indents one_level_rule [] 0 (map (fun p => indentation is_bytes tab_width (snd p)) l) = (map (fun p => i_indent (fst p)) l', match e with None => true | _ => false end) /\
  (e = None \/ e = Some IndentationError).
Proof.
  intros is_bytes sc tw l l' e T F E. unfold modify in E. apply Ok_inj in E.
  pose proof (loop_rule is_bytes sc tw T l (Forall_impl _ (untouched_fresh sc) F) [] [] ltac:(split; constructor) l' e E) as H. cbn [length] in H.
  destruct (indents one_level_rule [] 0 _) as [r ok]. destruct H as [<- ->]. destruct ok; auto.
Qed.
Print Assumptions C44_exact.
(** If it accepts the text, the indents are those of Python's rule. *)
Lemma one_level_python levels w ls : one_level_rule levels w = Some ls -> python_rule levels w = Some ls.
Proof. unfold one_level_rule. destruct (_ || _); [auto|discriminate]. Qed.
Lemma indents_python l : forall levels b r, indents one_level_rule levels b l = (r, true) -> indents python_rule levels b l = (r, true).
Proof.
  induction l as [|[w|] l IH]; intros levels b r; cbn [indents]; auto. destruct (one_level_rule levels w) as [ls|] eqn:E; [|discriminate]. rewrite (one_level_python _ _ _ E).
  destruct (indents one_level_rule ls 0 l) as [r0 ok] eqn:Q. intros [= <- ->]. now rewrite (IH _ _ _ Q).
Qed.
Theorem C44_accepted_is_python : forall is_bytes start_column tab_width l l', (0 < tab_width)%Z -> Forall (untouched start_column) l ->
  modify is_bytes start_column tab_width StripIndent (l, None) = Ok (l', None) ->
  indents python_rule [] 0 (map (fun p => indentation is_bytes tab_width (snd p)) l) = (map (fun p => i_indent (fst p)) l', true).
Proof. intros is_bytes sc tw l l' T F E. apply indents_python. apply (C44_exact _ _ _ _ _ _ T F E). Qed.
Print Assumptions C44_accepted_is_python.
(** every line is yielded, without its indentation *)
Theorem C44_text : forall is_bytes start_column tab_width l l', (0 < tab_width)%Z -> Forall (untouched start_column) l ->
  modify is_bytes start_column tab_width StripIndent (l, None) = Ok (l', None) ->
  Forall2 (fun p q => identity q = identity p /\ snd q = lstrip is_bytes (snd p) /\
    (snd q <> [] -> i_leading (fst q) = leading_space is_bytes (snd p) /\ i_column (fst q) = (start_column + Z.of_nat (length (expandtabs tab_width (leading_space is_bytes (snd p)))))%Z)) l l'.
Proof.
  intros is_bytes sc tw l l' T F E. unfold modify in E. apply Ok_inj in E.
  destruct (loop_text is_bytes sc tw l None (Forall_impl _ (untouched_fresh sc) F) [] 0%Z [] [] l' None ltac:(constructor) E) as (k & H1 & H2). cbn [app] in *. now rewrite (H2 eq_refl) in H1.
Qed.
Print Assumptions C44_text.
(** Python's rule accepts a dedent of two levels to an open one; the code does not. *)
Theorem C44_dedent_refuted : exists l, Forall (untouched 1) l /\
  snd (indents python_rule [] 0 (map (fun p => indentation false 8 (snd p)) l)) = true /\
  exists l', modify false 1 8 StripIndent (l, None) = Ok (l', Some IndentationError).
Proof.
  exists (number_lines 1 1 [(u "a", []); (u " b", []); (u "  c", []); (u "   d", []); (u " e", [])]). split; [|split; [vm_compute; reflexivity|eexists; vm_compute; reflexivity]].
  apply number_lines_forall. intros k q. split; [reflexivity|]. split; [reflexivity|]. rewrite new_info_line. exists (fst q). reflexivity.
Qed.
Print Assumptions C44_dedent_refuted.
Example C44_witness : match process false 1 4 (Text (u "a" ++ [10%N] ++ u "  b" ++ [10; 10; 9]%N ++ u "c" ++ [10%N] ++ u "  d" ++ [10%N] ++ u "e") None) 1 [StripIndent] with
  | Ok (l, None) => map (fun p => i_indent (fst p)) l = [0; 1; 2; 2; 1; 0]%Z | _ => False end.
Proof. vm_compute. reflexivity. Qed.

(** * C57 lines_sort *)
Theorem C57_sort : forall is_bytes start_column tab_width key_lt reverse l l' e,
  let lt := match key_lt with None => (fun a b : pair => str_ltb (snd a) (snd b)) | Some f => f end in
  (match key_lt with Some f => strict_weak f | None => True end) ->
  modify is_bytes start_column tab_width (Sort key_lt reverse) (l, None) = Ok (l', e) ->
  e = None /\ Permutation l' l /\ (if reverse then ascending lt (rev l') else ascending lt l') /\ forall x, ties lt x l' = ties lt x l.
Proof.
  intros is_bytes sc tw key rv l l' e lt W E. cbn [modify lines_sort] in E. change (match key with Some lt => lt | None => by_line end) with lt in E. injection E as <- <-.
  assert (SW : strict_weak lt) by (subst lt; destruct key; auto; exact by_line_weak). split; auto. destruct rv.
  - split; [apply sort_rev_perm|]. split; [unfold sort_rev; rewrite rev_involutive; now apply sort_sorted|]. intros x. now apply sort_rev_ties.
  - split; [apply sort_perm|]. split; [now apply sort_sorted|]. intros x. now apply sort_ties.
Qed.
Print Assumptions C57_sort.
Example C57_witness : match process false 1 8 (Strings [u "b"; u "a"; u "b"; u "c"]) 1 [Sort None true] with
  | Ok (l, None) => map (fun p => (i_number (fst p), snd p)) l = [(4%Z, u "c"); (1%Z, u "b"); (3%Z, u "b"); (2%Z, u "a")] | _ => False end.
Proof. vm_compute. reflexivity. Qed.

(** * C58 the filters *)
Lemma for_each_keep f l up : for_each (keep_if f) l up = (filter (fun p => f (snd p)) l, up).
Proof. induction l as [|p l IH]; auto. cbn. destruct (f (snd p)); rewrite IH; reflexivity. Qed.
(** [decides f P]: f is true of exactly the lines that satisfy P *)
Definition decides (f : str -> bool) (P : str -> Prop) : Prop := forall line, f line = true <-> P line.
Theorem C58_filters : forall is_bytes start_column tab_width l up,
  (forall s invert, exists f, decides f (fun line => exists a b, line = a ++ s ++ b) /\
     modify is_bytes start_column tab_width (Containing s invert) (l, up) = Ok (filter (fun p => xorb invert (f (snd p))) l, up)) /\
  (exists f, decides f (fun line => line <> []) /\
     modify is_bytes start_column tab_width FilterEmpty (l, up) = Ok (filter (fun p => f (snd p)) l, up)) /\
  (forall search invert, modify is_bytes start_column tab_width (Grep search invert) (l, up) = Ok (filter (fun p => xorb invert (search (snd p))) l, up)).
Proof.
  intros is_bytes sc tw l up. split; [|split].
  - intros s inv. exists (contains s). split; [intros line; apply contains_iff|]. cbn [modify]. rewrite for_each_keep. do 2 f_equal. apply filter_ext. intros [i line]. cbn [snd]. destruct inv, (contains s line); reflexivity.
  - exists (fun line => negb (is_nil line)). split; [|cbn [modify]; now rewrite for_each_keep]. intros line. rewrite negb_true_iff. apply is_nil_false.
  - intros search inv. cbn [modify]. rewrite for_each_keep. do 2 f_equal. apply filter_ext. intros [i line]. cbn [snd]. destruct inv, (search line); reflexivity.
Qed.
Print Assumptions C58_filters.
Lemma white_prefix is_bytes ws m r c m' : forallb (white is_bytes) ws = true -> m = c :: m' -> white is_bytes c = false -> lstrip is_bytes (ws ++ m ++ r) = m ++ r.
Proof. intros W -> C. induction ws as [|x ws IH]; cbn in *; [now rewrite C|]. apply andb_true_iff in W. destruct W as [-> W]. auto. Qed.
Lemma re_match_rel r s : (exists x, re_match r s = Some x) <-> exists s' g', rel r s [] s' g'.
Proof.
  unfold re_match. split.
  - intros [x E]. apply rmatch_sound in E. destruct E as (s' & g' & R & _). eauto.
  - intros (s' & g' & R). destruct (rmatch r s [] (fun s0 g => Some (g, s0))) as [x|] eqn:E; eauto. exfalso. eapply rmatch_complete in R; [exact (R E)|discriminate].
Qed.
Lemma rel_star_chr p ws r g : forallb p ws = true -> rel (Star (Chr p)) (ws ++ r) g r g.
Proof.
  induction ws as [|c ws IH]; intros W; [constructor|]. cbn in W. apply andb_true_iff in W. destruct W as [W1 W2].
  change ((c :: ws) ++ r) with (c :: (ws ++ r)). eapply (RelStar1 _ _ _ (ws ++ r) g); [apply RelChr; exact W1|apply Nat.lt_succ_diag_r|apply IH; exact W2].
Qed.
Lemma comment_line_iff is_bytes markers line : markers <> [] -> (forall m, In m markers -> exists c t, m = c :: t /\ white is_bytes c = false) ->
  (comment_line is_bytes markers line = true <-> exists ws m rest, line = ws ++ m ++ rest /\ forallb (white is_bytes) ws = true /\ In m markers).
Proof.
  intros N H. destruct markers as [|m0 [|m1 markers]]; [congruence|..].
  - cbn [comment_line]. rewrite starts_with_iff. split.
    + intros [r E]. destruct (lstrip_spec is_bytes line) as (ws & E' & W & _). rewrite E in E'. exists ws, m0, r. cbn. auto.
    + intros (ws & m & rest & -> & W & [<-|[]]). destruct (H m0 ltac:(left; auto)) as (c & t & -> & C). rewrite (white_prefix is_bytes ws (c :: t) rest c t) by auto. eauto.
  - remember (m0 :: m1 :: markers) as ms eqn:E.
    assert (comment_line is_bytes ms line = match re_match (Seq (Star (Chr (white is_bytes))) (separators_re ms false)) line with Some _ => true | None => false end) as -> by (subst; reflexivity).
    destruct (re_match (Seq (Star (Chr (white is_bytes))) (separators_re ms false)) line) as [x|] eqn:M.
    + split; auto. intros _. destruct (proj1 (re_match_rel _ _) (ex_intro _ x M)) as (s' & g' & R). apply rel_seq in R. destruct R as (s1 & g1 & R1 & R2). apply rel_star_class in R1. destruct R1 as (ws & -> & W & _).
      unfold separators_re, Plus in R2. apply rel_seq in R2. destruct R2 as (s2 & g2 & R2 & _). apply rel_alternatives in R2. destruct R2 as (w & Iw & -> & _). exists ws, w, s2. split; auto. split; auto. now rewrite in_sort in Iw.
    + split; [discriminate|]. intros (ws & m & rest & -> & W & I). exfalso. assert (Ex : exists x, re_match (Seq (Star (Chr (white is_bytes))) (separators_re ms false)) (ws ++ m ++ rest) = Some x); [|destruct Ex; congruence].
      apply re_match_rel. exists rest, []. econstructor; [apply rel_star_chr; exact W|]. econstructor; [apply rel_alternatives; exists m; split; [now apply in_sort|auto]|constructor].
Qed.
Theorem C58_comment_lines : forall is_bytes start_column tab_width markers l up, markers <> [] ->
  (forall m, In m markers -> exists c t, m = c :: t /\ white is_bytes c = false) ->
  exists f, decides f (fun line => exists ws m rest, line = ws ++ m ++ rest /\ forallb (white is_bytes) ws = true /\ In m markers) /\
    modify is_bytes start_column tab_width (FilterCommentLines markers) (l, up) = Ok (filter (fun p => negb (f (snd p))) l, up).
Proof.
  intros is_bytes sc tw markers l up N H. exists (comment_line is_bytes markers). split; [intros line; now apply comment_line_iff|].
  cbn [modify]. destruct markers; [congruence|]. cbn [is_nil]. now rewrite for_each_keep.
Qed.
Print Assumptions C58_comment_lines.
(** A marker that starts with whitespace works only in company. *)
Theorem C58_space_marker_refuted : comment_line false [u " #"] (u " #x") = false /\ comment_line false [u " #"; u ";"] (u " #x") = true.
Proof. split; vm_compute; reflexivity. Qed.
Print Assumptions C58_space_marker_refuted.

(** * C59 lines_strip_line_comments *)
Theorem C59_comments : forall is_bytes start_column tab_width (markers quotes : list str) escape (multiline_quotes : list str) l l' e, (forall m, In m markers -> m <> []) ->
  Forall (fun p => exists r, i_line (fst p) = r ++ i_end (fst p)) l ->
  modify is_bytes start_column tab_width (StripComments markers quotes escape multiline_quotes) (l, None) = Ok (l', e) ->
  uncommented markers multiline_quotes
    (fun state line segments => if is_nil quotes && is_nil multiline_quotes then segments = [mkSegment [] line [] []]
       else segments_of quotes multiline_quotes escape state line segments)
    (newline_inside is_bytes multiline_quotes) [] l l' e.
Proof.
  intros is_bytes sc tw markers quotes escape multi l l' e NE W E. cbn [modify] in E. destruct (is_nil markers); [discriminate|].
  destruct (if is_nil quotes && is_nil multi then _ else _) as [g|x] eqn:G; [|discriminate]. apply Ok_inj in E.
  assert (A : args_ok quotes multi []).
  { destruct (is_nil quotes && is_nil multi) eqn:N; [apply andb_true_iff in N; rewrite !is_nil_iff in N; left; tauto|]. right. split.
    - assert (D : split_quoted_strings is_bytes [120%N] quotes escape multi [] <> Err ValueError) by congruence.
      destruct (C39_errors is_bytes [120%N] quotes escape multi []) as [_ H].
      unfold quotes_ok. destruct (existsb is_nil (quotes ++ multi)) eqn:X.
      + exfalso. apply D, H. intros (Q & _). apply existsb_exists in X. destruct X as (q & I & Z). apply is_nil_iff in Z. exact (Q q I Z).
      + destruct (has_repeats (quotes ++ multi)) eqn:X2.
        * exfalso. apply D, H. intros (_ & _ & Q & _). apply has_repeats_iff in Q. congruence.
        * split; [now apply existsb_nil_false|]. split; [intros Z; apply app_eq_nil in Z; destruct Z as [-> ->]; discriminate|]. split; [now apply has_repeats_iff|auto].
    - intros [-> ->]. discriminate. }
  apply comments_uncommented; auto.
  - apply Forall_forall. exact NE.
  - eapply Forall_impl; [|exact W]. intros p H. now apply ends_with_iff.
Qed.
Print Assumptions C59_comments.
(** Without quote marks: every line is cut at its first marker, and nothing is raised. *)
Theorem C59_no_quotes : forall is_bytes start_column tab_width (markers : list str) escape l l' e, (forall m, In m markers -> m <> []) ->
  Forall (fun p => exists r, i_line (fst p) = r ++ i_end (fst p)) l ->
  modify is_bytes start_column tab_width (StripComments markers [] escape []) (l, None) = Ok (l', e) ->
  e = None /\ Forall2 (fun p q => identity q = identity p /\
    ((sep_free markers (snd p) /\ snd q = snd p) \/ exists w t, snd p = snd q ++ w ++ t /\ In w markers /\ forall i, i < length (snd q) -> ~ sep_at markers (snd p) i)) l l'.
Proof.
  intros is_bytes sc tw markers escape l l' e NE W E. apply C59_comments in E; auto. cbn [is_nil andb] in E.
  match type of E with uncommented ?m ?q ?f ?n _ _ _ _ => set (Sg := f) in E; set (N := n) in E end.
  assert (G : forall st, uncommented markers [] Sg N st l l' e -> st = [] -> e = None /\ Forall2 (fun p q => identity q = identity p /\
    ((sep_free markers (snd p) /\ snd q = snd p) \/ exists w t, snd p = snd q ++ w ++ t /\ In w markers /\ forall i, i < length (snd q) -> ~ sep_at markers (snd p) i)) l l'); [|exact (G _ E eq_refl)].
  clear E. intros st E.
  induction E as [|st0 Ne|st0 p q state' l l' e H I E IH|st0 p l B]; intros S; [split; auto|contradiction|subst st0..].
  - assert (state' = [] /\ ((sep_free markers (snd p) /\ snd q = snd p) \/ exists w t, snd p = snd q ++ w ++ t /\ In w markers /\ forall i, i < length (snd q) -> ~ sep_at markers (snd p) i)) as [-> D].
    { destruct H as [segs kept -> _ C|segs -> _ F _].
      - split; auto. right. destruct C as (before & g & after & x & w & t & Eg & F & In' & B & Iw & L & ->). destruct before as [|b before]; [|destruct before; discriminate].
        injection Eg as <- <-. cbn [body] in *. exists w, t. auto.
      - split; auto. left. split; auto. inversion F as [|? ? [C|C] _]; subst; [exfalso; apply C; reflexivity|exact C]. }
    inversion W; subst. destruct IH as [-> IH]; auto.
  - exfalso. destruct B as [segs -> X|segs -> F O _]; [discriminate X|apply O; reflexivity].
Qed.
Print Assumptions C59_no_quotes.
Example C59_witness : match process false 1 8 (Text (u "a'#' #b" ++ [10%N] ++ u "x '''#" ++ [10%N] ++ u "''' y #z") None) 1 [StripComments [u "#"; u "//"] [u "'"] (u "\") [u "'''"]] with
  | Ok (l, None) => map snd l = [u "a'#' "; u "x '''#"; u "''' y "] | _ => False end.
Proof. vm_compute. reflexivity. Qed.
(** What counts as whitespace: for bytes the six ASCII characters, for str every character with
    the Unicode property (str.isspace). *)
Theorem C58_whitespace : (forall c, white true c = true <-> In c [9; 10; 11; 12; 13; 32])%N /\ (forall c, white false c = true <-> is_space c = true) /\
  white false 160%N = true /\ white true 160%N = false.
Proof.
  split; [|split; [tauto|split; reflexivity]]. intros c. unfold white, between. cbn [In]. rewrite orb_true_iff, andb_true_iff, !N.leb_le, N.eqb_eq. lia.
Qed.
Print Assumptions C58_whitespace.
