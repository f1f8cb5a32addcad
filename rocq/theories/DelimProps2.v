(** C40: what split_delimiters yields, for every mapping *)
From Verif Require Import DelimModel DelimSpec SplitSpec SplitProof SplitProof2 SplitProof3 SplitProps PyStrProof DelimProof DelimProof2 DelimProof3 DelimProof4 DelimProof5 DelimScanSpec DelimScanProof DelimScanProof2 DelimProps.

Section Table.
  Context (is_bytes : bool) (table : delimiters) (OK : table_ok table).
  Notation lb := (is_linebreak is_bytes).
  Notation scan := (scan_any lb table).
  Lemma run_scan s : forall fuel st buffer escaped consumed ys e, known table st -> consumed <= length s -> wf buffer escaped ->
    delimiter_run is_bytes table s fuel (fst (rep st)) (snd (rep st)) buffer escaped consumed = (ys, e) -> e = None \/ e = Some SyntaxError ->
    scan s (consumed, 0) st (concat buffer) (on escaped) ys e.
  Proof.
    induction fuel as [|fuel IH]; intros st buffer escaped consumed ys e Kn Lc Wf E Ne; cbn [delimiter_run] in E.
    - injection E as <- <-. destruct Ne; discriminate.
    - destruct (C32_multisplit_is_the_split (skipn consumed s) (Some (all_tokens is_bytes table)) AsPairs (Some (-1)%Z) false true) as (l & y & Sp & Em);
        [split; [apply tokens_nonnil; auto|apply tokens_nonempty; auto]|].
      rewrite Em in E. clear Em. cbn in Sp. change (map (fun p : str * str => Two (fst p) (snd p)) l ++ [Two y []]) with (as_pairs l y) in E.
      destruct (delimiter_loop is_bytes table (as_pairs l y) (fst (rep st)) (snd (rep st)) buffer escaped consumed) as [ys0 r] eqn:El.
      pose proof (loop_scan is_bytes table OK s _ _ _ _ Sp eq_refl consumed st buffer escaped consumed ys0 r eq_refl Lc Kn (Nat.le_refl _) Wf El) as G. rewrite Nat.sub_diag in G.
      destruct r as [b e0|e0|c st' b e0 n]; cbn [good] in G.
      + destruct G as [W G]. assert (Q : (ys, e) = (ys0 ++ (if on e0 then [] else final_text (concat b)), if on e0 then Some SyntaxError else None)).
        { rewrite <- E. unfold on. destruct (is_nil b) eqn:Nb.
          - apply is_nil_iff in Nb. subst b. destruct e0; [|exfalso; now apply W]. cbn. now rewrite app_nil_r.
          - destruct (is_nil e0); cbn [negb]; [|now rewrite app_nil_r]. destruct (concat b); cbn; [now rewrite app_nil_r|reflexivity]. }
        injection Q as -> ->. exact G.
      + injection E as <- <-. apply G. destruct Ne; congruence.
      + destruct G as (st2 & R & K2 & W2 & L2 & G). destruct (delimiter_run is_bytes table s fuel c st' b e0 n) as [ys' e'] eqn:Er. injection E as <- <-. apply G.
        assert (R1 : c = fst (rep st2)) by (rewrite <- R; reflexivity). assert (R2 : st' = snd (rep st2)) by (rewrite <- R; reflexivity). subst c st'. eapply IH; eauto.
  Qed.
  Lemma opener_token k d : In (k, d) table -> In k (all_tokens is_bytes table).
  Proof. intros I. unfold all_tokens, delimiter_tokens, openers. rewrite !in_app_iff. left. left. apply in_map_iff. exists (k, d). auto. Qed.
  Lemma enter_open_all state : forall st, known table st ->
    enter_state is_bytes table state (fst (rep st)) (snd (rep st)) = match open_all lb table st state with Some st' => Ok (rep st') | None => Err ValueError end /\
    match open_all lb table st state with Some st' => known table st' | None => True end.
  Proof.
    induction state as [|k state IH]; intros st Kn; cbn [enter_state open_all]; [destruct (rep st); auto|]. rewrite rep_fst.
    pose proof (known_in table st Kn) as IT. destruct (decide lb table (hd_error st) k) as [d|x|x| | |] eqn:D.
    1: { pose proof (decide_opens is_bytes table _ _ _ D) as I. pose proof (lookup_means is_bytes table OK (hd_error st) k IT (opener_token k d I)) as M. rewrite D in M. cbn [means] in M. rewrite M.
         destruct (IH (d :: st)) as [A B]; [constructor; eauto|]. cbn [rep fst snd] in A. rewrite rep_fst in A. auto. }
    all: destruct (lookup is_bytes table (hd_error st) k) eqn:L; auto; exfalso;
      pose proof (lookup_has_shape is_bytes table OK (hd_error st) k IT) as S; rewrite L in S; assert (exists d', get table k = Some d') as [d' G] by (inversion S; eauto);
      pose proof (lookup_means is_bytes table OK (hd_error st) k IT (opener_token _ _ (get_in _ _ _ G))) as M; rewrite D, L in M; cbn [means] in M;
      try discriminate; try (destruct (str_eqb _ _); discriminate); destruct M; discriminate.
  Qed.
End Table.

(** For every mapping, text and state: split_delimiters yields exactly what the scanner of
    DelimScanSpec.v finds, from the beginning of the text. *)
Theorem C40_exact : forall is_bytes s table state l e, mapping_ok table ->
  split_delimiters is_bytes s (Some table) state = Ok (l, e) <->
  exists open, open_all (is_linebreak is_bytes) table [] state = Some open /\ scan_any (is_linebreak is_bytes) table s (0, 0) open [] false l e.
Proof.
  intros is_bytes s table state l e M.
  assert (F : forall open l e, open_all (is_linebreak is_bytes) table [] state = Some open -> split_delimiters is_bytes s (Some table) state = Ok (l, e) ->
            scan_any (is_linebreak is_bytes) table s (0, 0) open [] false l e).
  { intros open l0 e0 O E. destruct (C40_nesting _ _ _ _ _ _ M E) as [_ Ne]. rewrite split_delimiters_ok in E by exact M. destruct M as [OK _].
    destruct (enter_open_all is_bytes table OK state [] ltac:(constructor)) as [En K]. rewrite O in En, K. cbn [rep fst snd] in En. rewrite En in E. destruct (rep open) as [cur stack] eqn:R.
    apply Ok_inj in E. change (@nil chr) with (concat (@nil str)). change false with (on []). eapply run_scan; try exact E; auto; [lia|intros Q; congruence|rewrite R; exact E]. }
  split.
  - intros E. pose proof E as E0. rewrite split_delimiters_ok in E by exact M. destruct (enter_open_all is_bytes table (proj1 M) state [] ltac:(constructor)) as [En _]. cbn [rep fst snd] in En.
    rewrite En in E. destruct (open_all (is_linebreak is_bytes) table [] state) as [open|] eqn:O; [|discriminate]. exists open. split; auto.
  - intros (open & O & Sc). destruct (split_delimiters is_bytes s (Some table) state) as [[l0 e0]|x] eqn:E.
    + pose proof (F open l0 e0 O eq_refl) as Sc0. destruct (scan_unique is_bytes table (proj1 M) _ _ _ _ _ _ _ Sc _ _ Sc0) as [-> ->]. reflexivity.
    + exfalso. rewrite split_delimiters_ok in E by exact M. destruct (enter_open_all is_bytes table (proj1 M) state [] ltac:(constructor)) as [En _]. cbn [rep fst snd] in En.
      rewrite En, O in E. destruct (rep open). discriminate.
Qed.
Print Assumptions C40_exact.

Section Nesting.
  Context (is_bytes : bool) (table : delimiters) (OK : table_ok table) (NQ : forall k d, In (k, d) table -> d_quoting d = false).
  Notation lb := (is_linebreak is_bytes).
  Lemma token_at_longest r w : token_at lb table r w <-> longest_at table r w.
  Proof.
    assert (M : existsb (fun p : str * delimiter => negb (d_multiline (snd p))) table = false).
    { apply not_true_iff_false. intros E. apply existsb_exists in E as ([k d] & I & E). cbn in E. destruct (ok_multiline _ OK k d I) as [Q|Q]; [rewrite (NQ k d I) in Q; discriminate|now rewrite Q in E]. }
    unfold token_at, longest_at, is_token. rewrite M. cbn [andb]. rewrite orb_false_r. split; (intros (A & B & C); split; [exact A|]; split; [exact B|]); intros w' t T; apply C; [now rewrite orb_false_r|now rewrite orb_false_r in T].
  Qed.
  Lemma decide_nesting st w : known table st -> is_delimiter table w = true ->
    decide lb table (hd_error st) w = match opens_any table w with Some d => Opens d | None => match st with [] => Wrong | d :: _ => if begins (d_close d) w then Closes (d_close d) else Wrong end end.
  Proof.
    intros Kn D. destruct st as [|d st]; cbn [hd_error decide]; rewrite D; [reflexivity|]. destruct (Forall_inv Kn) as [k I]. rewrite (NQ k d I). reflexivity.
  Qed.
  Lemma begins_true a w : begins a w = true <-> exists w', w = a ++ w'.
  Proof.
    split; [intros H; now apply begins_app in H|]. intros (w' & ->). unfold begins. rewrite firstn_app, Nat.sub_diag, firstn_all. cbn [firstn]. rewrite app_nil_r. apply str_eqb_refl.
  Qed.
  Lemma rest_after (s : str) p (w t : str) : skipn p s = w ++ t -> skipn (p + length w) s = t. Proof. apply skipn_more. Qed.
  Lemma to_nesting s a st t esc y e : scan_any lb table s a st t esc y e -> snd a = 0 -> esc = false -> known table st -> scan_nesting table st t (skipn (fst a) s) y e.
  Proof.
    induction 1 as [a st t esc E|a c st t esc y e N F H IH|a c w st t y e T H IH|a w d st t y e T D H IH|a w x d st t y e T D H IH|a w x st t y e T D H IH|a c w st t y e T D H IH|a w st t y e T D H IH|a w st t T D];
      intros B Es Kn; destruct a as [p back]; cbn [fst snd] in *; subst back; try discriminate Es; try subst esc;
      try (apply token_at_longest in T; pose proof T as (Dw & (r & Er) & _); try rewrite (decide_nesting st _ Kn Dw) in D).
    - rewrite E, skipn_all2 by lia. constructor.
    - assert (E : skipn p s = c :: skipn (p + 1) s).
      { clear - N. revert p N. induction s as [|d s IHs]; intros [|p] N; cbn in *; try discriminate; [now injection N as ->|now apply IHs]. }
      rewrite E. constructor; [|apply IH; auto]. intros w T. apply (F w). apply token_at_longest. now rewrite E.
    - destruct (opens_any table w) as [d'|] eqn:O; [injection D as ->|destruct st as [|d0 st]; [discriminate|destruct (begins _ w); discriminate]].
      rewrite Er in T |- *. apply nesting_open with d; auto. cbn [read] in IH. rewrite <- (rest_after s p w r Er). apply IH; auto. constructor; auto. exists w. apply get_in. now rewrite <- opens_any_get.
    - change (Some d) with (hd_error (d :: st)) in D. rewrite (decide_nesting (d :: st) w Kn Dw) in D. destruct (opens_any table w) eqn:O; [discriminate|]. destruct (begins (d_close d) w) eqn:Bg; [injection D as <-|discriminate].
      apply begins_true in Bg as (w' & Ew). assert (Er' : skipn p s = d_close d ++ (w' ++ r)) by (rewrite Er, Ew, <- app_assoc; reflexivity).
      rewrite Er' in T |- *. apply nesting_close with w; eauto. rewrite <- (rest_after s p _ _ Er').
      assert (R : read (p, 0) (length (d_close d)) (str_eqb (d_close d) w) = (p + length (d_close d), 0)) by (cbn [read]; destruct (str_eqb (d_close d) w); [auto|now rewrite Nat.sub_0_r]).
      rewrite R in IH. apply IH; auto. now apply Forall_inv_tail in Kn.
    - destruct (opens_any table w); [discriminate|]. destruct st; [discriminate|]. destruct (begins _ w); discriminate.
    - destruct (opens_any table (c :: w)); [discriminate|]. destruct st; [discriminate|]. destruct (begins _ _); discriminate.
    - destruct (opens_any table w); [discriminate|]. destruct st; [discriminate|]. destruct (begins _ w); discriminate.
    - destruct (opens_any table w) eqn:O; [discriminate|]. apply nesting_wrong with w; auto. intros d below w' -> Ew.
      assert (begins (d_close d) w = true) as Bg by (apply begins_true; eauto). rewrite Bg in D. discriminate.
  Qed.
  Lemma from_nesting s st t r y e : scan_nesting table st t r y e -> forall p, r = skipn p s -> p <= length s -> known table st -> scan_any lb table s (p, 0) st t false y e.
  Proof.
    assert (Len : forall p (a b : str), a ++ b = skipn p s -> p <= length s -> p + length a <= length s).
    { intros p a b E L. assert (length (a ++ b) = length (skipn p s)) as Q by now rewrite E. rewrite skipn_length, app_length in Q. lia. }
    induction 1 as [st t|st t c r y e F H IH|st t w r d y e T O H IH|st t w d r y e T O (w' & Ew) H IH|st t w r T O Nc]; intros p Er Lp Kn.
    - apply (any_end lb table s (p, 0) st t false). cbn [fst]. assert (length (skipn p s) = 0) as Z by (rewrite <- Er; reflexivity). rewrite skipn_length in Z. lia.
    - apply any_character with c; cbn [fst read].
      + eapply skipn_first. symmetry. exact Er.
      + rewrite <- Er. intros w T. apply (F w). now apply token_at_longest.
      + pose proof (Len p [c] r Er Lp) as L. cbn [length] in L. apply IH; auto. symmetry. apply (rest_after s p [c] r). now symmetry.
    - pose proof T as (Dw & _). apply any_open with d.
      + cbn [fst]. rewrite <- Er. now apply token_at_longest.
      + rewrite (decide_nesting st w Kn Dw), O. reflexivity.
      + cbn [read]. apply IH; eauto; [symmetry; now apply rest_after|]. constructor; auto. exists w. apply get_in. now rewrite <- opens_any_get.
    - pose proof T as (Dw & _). apply any_close with w.
      + cbn [fst]. rewrite <- Er. now apply token_at_longest.
      + change (Some d) with (hd_error (d :: st)). rewrite (decide_nesting (d :: st) w Kn Dw), O, (proj2 (begins_true _ _) ltac:(eauto)). reflexivity.
      + assert (R : read (p, 0) (length (d_close d)) (str_eqb (d_close d) w) = (p + length (d_close d), 0)) by (cbn [read]; destruct (str_eqb (d_close d) w); [auto|now rewrite Nat.sub_0_r]).
        rewrite R. apply IH; eauto; [symmetry; now apply rest_after|now apply Forall_inv_tail in Kn].
    - pose proof T as (Dw & _). apply any_wrong with w.
      + cbn [fst]. rewrite <- Er. now apply token_at_longest.
      + rewrite (decide_nesting st w Kn Dw), O. destruct st as [|d st]; auto. destruct (begins (d_close d) w) eqn:Bg; auto. apply begins_true in Bg as (w' & Ew). exfalso. exact (Nc d st w' eq_refl Ew).
  Qed.
End Nesting.

(** Without quoting delimiters: at each place the longest delimiter counts, except that one that
    begins with the closing delimiter that is awaited, and opens nothing, is that delimiter. *)
Theorem C40_nesting_exact : forall is_bytes s table state l e, mapping_ok table -> (forall k d, In (k, d) table -> d_quoting d = false) ->
  split_delimiters is_bytes s (Some table) state = Ok (l, e) <->
  exists open, open_all (is_linebreak is_bytes) table [] state = Some open /\ scan_nesting table open [] s l e.
Proof.
  intros is_bytes s table state l e M NQ. rewrite (C40_exact is_bytes s table state l e M).
  assert (K : forall open, open_all (is_linebreak is_bytes) table [] state = Some open -> known table open).
  { intros open O. destruct (enter_open_all is_bytes table (proj1 M) state [] ltac:(constructor)) as [_ K]. now rewrite O in K. }
  split; intros (open & O & Sc); exists open; (split; [exact O|]).
  - apply (to_nesting is_bytes table (proj1 M) NQ) in Sc; auto.
  - apply (from_nesting is_bytes table (proj1 M) NQ s) with (p := 0) in Sc; auto; lia.
Qed.
Print Assumptions C40_nesting_exact.

(** Both rules at work: "))" closes "((", and ")" read at the beginning of "))" closes "(" *)
Example C40_nesting_exact_witness :
  let d x := mkDelimiter x [] true false in let table := [(u "(", d (u ")")); (u "((", d (u "))")); (u "[", d (u "]"))] in
  mapping_ok table /\ (forall k d, In (k, d) table -> d_quoting d = false) /\ open_all (is_linebreak false) table [] [u "["; u "("] = Some [d (u ")"); d (u "]")] /\
  split_delimiters false (u "a((b(c)))d") (Some table) [] = Ok ([(u "a", u "((", []); (u "b", u "(", []); (u "c", [], u ")"); ([], [], u "))"); (u "d", [], [])], None) /\
  split_delimiters false (u "a((b)") (Some table) [] = Ok ([(u "a", u "((", [])], Some SyntaxError).
Proof.
  cbv zeta. split; [split; [constructor|]|].
  - discriminate.
  - intros k d [[= <- <-]|[[= <- <-]|[[= <- <-]|[]]]]; split; discriminate.
  - intros k d [[= <- <-]|[[= <- <-]|[[= <- <-]|[]]]]; cbn; split; congruence.
  - intros k d [[= <- <-]|[[= <- <-]|[[= <- <-]|[]]]]; cbn; auto.
  - intros k k' d K J _. assert (C : d_close d = u ")" \/ d_close d = u "))" \/ d_close d = u "]") by (destruct J as [[= <- <-]|[[= <- <-]|[[= <- <-]|[]]]]; auto).
    destruct K as [<-|[<-|[<-|[]]]]; destruct C as [-> |[-> | ->]]; discriminate.
  - cbn. intuition discriminate.
  - split; [intros k d [[= <- <-]|[[= <- <-]|[[= <- <-]|[]]]]; reflexivity|]. vm_compute. repeat split.
Qed.
(** And the defect: the text of C40_text_preserved_refuted. The quote mark in it is read twice. *)
Example C40_exact_witness :
  let table := [(u "(", mkDelimiter (u ")") [] true false); (u "<""<", mkDelimiter (u ">"">") [] true false); (u """", mkDelimiter (u """") (u "\") true true)] in
  decide (is_linebreak false) table (Some (mkDelimiter (u """") (u "\") true true)) (u "(") = PassOver /\
  decide (is_linebreak false) table (Some (mkDelimiter (u """") (u "\") true true)) (u "<""<") = PassOne /\
  split_delimiters false (u """(<""<""") (Some table) [] = Ok ([([], u """", []); (u "(<<", [], u """"); (u "<", u """", [])], None).
Proof. vm_compute. repeat split. Qed.
