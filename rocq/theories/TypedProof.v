(** re.split with the empty string among the separators (TypedModel.v): the text is cut between any two characters as well. *)
From Verif Require Import TypedModel SplitSpec SplitProof SplitProof2 SplitProof3 RegexProof RefindRegex PyBaseProof PyStrProof.

Definition ne (seps : list str) : list str := filter (fun w => negb (is_nil w)) seps.
Lemma ne_nonempty seps : nonempty (ne seps).
Proof. unfold nonempty, ne. rewrite Forall_forall. intros w I. apply filter_In in I as (_ & I). now destruct w. Qed.

(** ** the pattern *)
Lemma insert_app x l n : x <> [] -> insert longer x (l ++ repeat [] n) = insert longer x l ++ repeat [] n.
Proof.
  intros Nx. induction l as [|y l IH]; cbn [app insert]; [|destruct (longer y x); auto; now rewrite IH].
  destruct x as [|c x]; [congruence|]. destruct n as [|n]; reflexivity.
Qed.
Lemma insert_nil l n : nonempty l -> insert longer [] (l ++ repeat [] n) = l ++ repeat [] (S n).
Proof.
  induction 1 as [|y l N F IH]; cbn [app insert]; [|unfold longer at 1; destruct y; [congruence|]; cbn [length Nat.ltb Nat.leb]; now rewrite IH].
  destruct n as [|n]; [reflexivity|]. cbn [repeat insert longer]. reflexivity.
Qed.
Lemma sort_ne seps : exists n, sort longer seps = sort longer (ne seps) ++ repeat [] n /\ (n = 0 <-> ~ In [] seps).
Proof.
  induction seps as [|x seps (n & E & D)]; [exists 0; split; auto; tauto|]. cbn [sort]. rewrite E. destruct x as [|c x].
  - exists (S n). split; [|split; [discriminate|intros H; destruct H; now left]]. cbn [ne filter is_nil negb]. apply insert_nil.
    unfold nonempty. rewrite Forall_forall. intros w I. rewrite in_sort in I. eapply nonempty_in; [apply ne_nonempty|exact I].
  - exists n. split; [|rewrite D; split; [intros H [K|K]; [discriminate|now apply H]|intros H K; apply H; now right]]. cbn [ne filter is_nil negb sort]. now apply insert_app.
Qed.
Lemma first_some_app {A R} (f : A -> option R) l m : first_some f (l ++ m) = match first_some f l with Some y => Some y | None => first_some f m end.
Proof. induction l as [|x l IH]; cbn; auto. destruct (f x); auto. Qed.
Lemma alternatives_ne R seps s g (k : str -> groups -> option R) : In [] seps ->
  rmatch (alternatives (sort longer seps)) s g k = match rmatch (alternatives (sort longer (ne seps))) s g k with Some x => Some x | None => k s g end.
Proof.
  intros I. destruct (sort_ne seps) as (n & -> & D). rewrite !rmatch_alternatives, first_some_app. destruct (first_some _ (sort longer (ne seps))); auto.
  destruct n as [|n]; [now apply D in I|]. clear. cbn [repeat first_some strip_prefix]. destruct (k s g) eqn:K; auto.
  induction n as [|n IH]; cbn [repeat first_some strip_prefix]; auto. now rewrite K.
Qed.
Lemma star_ne R seps s g (k : str -> groups -> option R) : In [] seps ->
  rmatch (Star (alternatives (sort longer seps))) s g k = rmatch (Star (alternatives (sort longer (ne seps)))) s g k.
Proof.
  intros I. cbn [rmatch]. match goal with |- ?La _ _ _ = ?Lb _ _ _ => set (la := La); set (lb := Lb) end.
  generalize (length s) as n. intros n. revert s g. induction n as [|n IH]; intros s g; auto.
  change (la (S n) s g) with (match rmatch (alternatives (sort longer seps)) s g (fun s' g' => if length s' <? length s then la n s' g' else None) with Some x => Some x | None => k s g end).
  change (lb (S n) s g) with (match rmatch (alternatives (sort longer (ne seps))) s g (fun s' g' => if length s' <? length s then lb n s' g' else None) with Some x => Some x | None => k s g end).
  rewrite alternatives_ne by auto. rewrite Nat.ltb_irrefl.
  rewrite (rmatch_ext R (alternatives (sort longer (ne seps))) s g _ (fun s' g' => if length s' <? length s then lb n s' g' else None)).
  2:{ intros s' g' _. destruct (length s' <? length s); [apply IH|reflexivity]. }
  destruct (rmatch (alternatives (sort longer (ne seps))) s g _); auto.
Qed.
Lemma none_here R seps s g (k : str -> groups -> option R) : ~ sep_at (ne seps) s 0 -> rmatch (alternatives (sort longer (ne seps))) s g k = None.
Proof.
  intros N. rewrite rmatch_alternatives.
  assert (H : forall w, In w (sort longer (ne seps)) -> strip_prefix w s = None).
  { intros w I. destruct (strip_prefix w s) as [t|] eqn:E; auto. destruct N. apply strip_prefix_spec in E. exists w, t. split; auto. now apply in_sort. }
  revert H. generalize (sort longer (ne seps)) as l. induction l as [|w l IH]; intros H; cbn; auto. rewrite (H w) by now left. apply IH. intros; apply H. now right.
Qed.
Lemma star_none_here R seps s g (k : str -> groups -> option R) : ~ sep_at (ne seps) s 0 -> rmatch (Star (alternatives (sort longer (ne seps)))) s g k = k s g.
Proof. intros N. cbn [rmatch]. destruct (length s) as [|n]; auto. cbn beta iota. now rewrite none_here. Qed.
Lemma rmatch_map A B (f : A -> B) r : forall s g (k : str -> groups -> option A), rmatch r s g (fun s g => option_map f (k s g)) = option_map f (rmatch r s g k).
Proof.
  induction r as [|p|a IHa b IHb|a IHa b IHb|a IHa|i a IHa|]; intros s g k.
  - reflexivity.
  - cbn. destruct s as [|c t]; auto. destruct (p c); auto.
  - cbn. rewrite <- IHa. apply rmatch_ext. intros. apply IHb.
  - cbn. rewrite IHa, IHb. destruct (rmatch a s g k); reflexivity.
  - cbn [rmatch]. match goal with |- ?La _ _ _ = option_map f (?Lb _ _ _) => set (la := La); set (lb := Lb) end.
    generalize (length s) as n. intros n. revert s g. induction n as [|n IH]; intros s g; auto.
    change (la (S n) s g) with (match rmatch a s g (fun s' g' => if length s' <? length s then la n s' g' else None) with Some x => Some x | None => option_map f (k s g) end).
    change (lb (S n) s g) with (match rmatch a s g (fun s' g' => if length s' <? length s then lb n s' g' else None) with Some x => Some x | None => k s g end).
    rewrite (rmatch_ext B a s g _ (fun s' g' => option_map f (if length s' <? length s then lb n s' g' else None))).
    2:{ intros s' g' _. destruct (length s' <? length s); [apply IH|reflexivity]. }
    rewrite IHa. destruct (rmatch a s g _); reflexivity.
  - cbn. now rewrite <- IHa.
  - cbn. destruct (at_eol s); auto.
Qed.
(** one match: a nonempty separator, or else the empty string *)
Lemma match_ne R separate seps s g (k : str -> groups -> option R) : In [] seps ->
  (~ sep_at (ne seps) s 0 -> rmatch (separators_re seps separate) s g k = k s g) /\
  rmatch (separators_re seps separate) s g k = match rmatch (separators_re (ne seps) separate) s g k with Some x => Some x | None => rmatch (separators_re seps separate) s g k end.
Proof.
  intros I. unfold separators_re. destruct separate.
  - rewrite alternatives_ne by auto. split; [|destruct (rmatch _ _ _ _); auto]. intros N. now rewrite none_here.
  - change (rmatch (Plus (alternatives (sort longer seps))) s g k) with (rmatch (alternatives (sort longer seps)) s g (fun s g => rmatch (Star (alternatives (sort longer seps))) s g k)).
    change (rmatch (Plus (alternatives (sort longer (ne seps)))) s g k) with (rmatch (alternatives (sort longer (ne seps))) s g (fun s g => rmatch (Star (alternatives (sort longer (ne seps)))) s g k)).
    rewrite alternatives_ne by auto.
    erewrite (rmatch_ext R _ s g (fun s g => rmatch (Star (alternatives (sort longer seps))) s g k)) by (intros s' g' _; apply star_ne; auto).
    rewrite star_ne by auto. split; [|destruct (rmatch (alternatives (sort longer (ne seps))) s g _); auto]. intros N. rewrite none_here by auto. now apply star_none_here.
Qed.
Lemma match_from_none separate seps s again : In [] seps -> ~ sep_at (ne seps) s 0 ->
  match_from again (separators_re seps separate) s = if again then None else Some s.
Proof. intros I N. unfold match_from. rewrite (proj1 (match_ne _ separate seps s [] _ I) N), Nat.eqb_refl, andb_true_r. reflexivity. Qed.
Lemma match_from_some separate seps w t again : In [] seps -> one_split separate (ne seps) w t ->
  match_from again (separators_re seps separate) (w ++ t) = Some t.
Proof.
  intros I O. unfold match_from. rewrite (proj2 (match_ne _ separate seps (w ++ t) [] _ I)).
  pose proof (match_spec separate (ne seps) (w ++ t) (ne_nonempty seps)) as M. unfold re_match in M.
  assert (E : rmatch (separators_re (ne seps) separate) (w ++ t) [] (fun t' _ => if again && (length t' =? length (w ++ t)) then None else Some t') =
              rmatch (separators_re (ne seps) separate) (w ++ t) [] (fun t' _ => Some t')).
  { apply rmatch_ext. intros s' g' R. replace (length s' =? length (w ++ t)) with false; [now rewrite andb_false_r|]. symmetry. apply Nat.eqb_neq. intros L.
    assert (G : exists g, rel (separators_re (ne seps) separate) (w ++ t) [] s' g) by eauto. clear R. destruct G as (g & R).
    assert (X : exists v, v <> [] /\ w ++ t = v ++ s').
    { unfold separators_re in R. destruct separate.
      - apply rel_alternatives in R as (v & Iv & E & _). exists v. split; auto. rewrite in_sort in Iv. eapply nonempty_in; [apply ne_nonempty|exact Iv].
      - apply rel_seq in R as (s1 & g1 & R1 & R2). apply rel_alternatives in R1 as (v & Iv & E & _). rewrite in_sort in Iv. pose proof (nonempty_in _ _ (ne_nonempty seps) Iv).
        apply rel_suffix in R2 as (p & ->). exists (v ++ p). split; [destruct v; [congruence|discriminate]|now rewrite <- app_assoc]. }
    destruct X as (v & Nv & E). rewrite E, app_length in L. destruct v; [congruence|cbn in L; lia]. }
  rewrite E. clear E.
  destruct (rmatch (separators_re (ne seps) separate) (w ++ t) [] (fun t' _ => Some t')) as [t'|] eqn:E.
  - f_equal. assert (E2 : exists g, rmatch (separators_re (ne seps) separate) (w ++ t) [] (fun s g => Some (g, s)) = Some (g, t')).
    { clear M. destruct (rmatch (separators_re (ne seps) separate) (w ++ t) [] (fun s g => Some (g, s))) as [[g t2]|] eqn:F.
      - exists g. f_equal. f_equal.
        assert (Q : rmatch (separators_re (ne seps) separate) (w ++ t) [] (fun t' _ => Some t') = Some t2); [|congruence]. clear E.
        revert F. generalize (separators_re (ne seps) separate) as r, (w ++ t) as s. intros r s.
        replace (rmatch r s [] (fun t' _ => Some t')) with (option_map snd (rmatch r s [] (fun s g => Some (g, s)))); [now intros ->|]. now rewrite <- (rmatch_map _ _ snd).
      - exfalso. apply rmatch_sound in E as (s' & g' & R & _). eapply rmatch_complete in R; [exact (R F)|discriminate]. }
    destruct E2 as (g & E2). rewrite E2 in M. destruct M as (w' & Ew & O' & _). symmetry in Ew. now destruct (one_split_fun _ _ _ _ _ _ O' O Ew).
  - exfalso. pose proof (one_split_sep _ _ _ _ O) as S. destruct (rmatch (separators_re (ne seps) separate) (w ++ t) [] (fun s g => Some (g, s))) as [[g t2]|] eqn:F; [|now apply M].
    apply rmatch_sound in F as (s' & g' & R & _). eapply rmatch_complete in R; [exact (R E)|discriminate].
Qed.

(** ** the split *)
Section Split.
  Variables (separate : bool) (seps : list str).
  Hypothesis I : In [] seps.
  Local Notation r := (separators_re seps separate).
  Definition before_first (c : chr) (p : list (str * str) * str) : list (str * str) * str :=
    match fst p with [] => ([], c :: snd p) | (b, m) :: l => ((c :: b, m) :: l, snd p) end.
  Lemma step_none f s : ~ sep_at (ne seps) s 0 ->
    split_any_fuel (S f) r None false s = (([], []) :: fst (split_any_fuel f r None true s), snd (split_any_fuel f r None true s)).
  Proof.
    intros N. cbn [split_any_fuel]. replace (search_from false r s) with (Some ([] : str, [] : str, s)).
    - cbn [is_nil option_map]. destruct (split_any_fuel f r None true s); reflexivity.
    - pose proof (match_from_none separate seps s false I N) as M. cbn iota in M. destruct s; cbn [search_from]; rewrite M; rewrite Nat.sub_diag; reflexivity.
  Qed.
  Lemma step_true f c s : ~ sep_at (ne seps) (c :: s) 0 -> split_any_fuel (S f) r None true (c :: s) = before_first c (split_any_fuel (S f) r None false s).
  Proof.
    intros N. cbn [split_any_fuel]. pose proof (match_from_none separate seps (c :: s) true I N) as M. cbn iota in M. cbn [search_from]. rewrite M.
    destruct (search_from false r s) as [[[b m] a]|]; [|reflexivity]. cbn [option_map]. destruct (split_any_fuel f r None (is_nil m) a); reflexivity.
  Qed.
  Lemma step_true_nil f : split_any_fuel f r None true [] = ([], []).
  Proof.
    destruct f; auto. cbn [split_any_fuel search_from]. rewrite match_from_none; auto. intros (w & t & Iw & E). cbn in E. symmetry in E. apply app_eq_nil in E as (-> & _).
    exact (nonempty_in _ _ (ne_nonempty seps) Iw eq_refl).
  Qed.
  Lemma step_cut f w t : w <> [] -> one_split separate (ne seps) w t ->
    split_any_fuel (S f) r None false (w ++ t) = (([], w) :: fst (split_any_fuel f r None false t), snd (split_any_fuel f r None false t)).
  Proof.
    intros N O. cbn [split_any_fuel]. replace (search_from false r (w ++ t)) with (Some ([] : str, w, t)).
    - replace (is_nil w) with false by now destruct w. cbn [option_map]. destruct (split_any_fuel f r None false t); reflexivity.
    - pose proof (match_from_some separate seps w t false I O) as M.
      assert (E : firstn (length (w ++ t) - length t) (w ++ t) = w) by (rewrite app_length, Nat.add_sub, firstn_app, Nat.sub_diag, firstn_all, app_nil_r; reflexivity).
      destruct (w ++ t) as [|c s] eqn:Q; [destruct w; [congruence|discriminate]|]. cbn [search_from]. rewrite M, E. reflexivity.
  Qed.
  (** a string before a separator falls apart *)
  Definition shred (p : str * str) : list (str * str) := combine ([] :: map (fun c => [c]) (fst p)) (map (fun _ => []) (fst p) ++ [snd p]).
  Lemma shred_cons c x w : shred (c :: x, w) = ([], []) :: fst (before_first c (shred (x, w), [])).
  Proof. unfold shred. cbn [fst snd map app combine]. destruct x; reflexivity. Qed.
  Lemma shred_hd x w : exists m l, shred (x, w) = ([], m) :: l.
  Proof. unfold shred. cbn [fst snd map combine]. destruct x; cbn; eauto. Qed.
  Lemma before_first_shred c x w l y : before_first c (shred (x, w) ++ l, y) = (fst (before_first c (shred (x, w), [])) ++ l, y).
  Proof. destruct (shred_hd x w) as (m & q & ->). reflexivity. Qed.
  Lemma sep_free_skip c s : sep_free (ne seps) (c :: s) -> ~ sep_at (ne seps) (c :: s) 0 /\ sep_free (ne seps) s.
  Proof. intros F. split; [apply F|]. intros i H. now apply (F (S i)). Qed.
  Lemma nil_free : ~ sep_at (ne seps) [] 0.
  Proof. intros (w & t & Iw & E). cbn in E. symmetry in E. apply app_eq_nil in E as (-> & _). exact (nonempty_in _ _ (ne_nonempty seps) Iw eq_refl). Qed.
  Lemma free_shreds s : sep_free (ne seps) s -> forall f, 2 * length s + 1 <= f -> split_any_fuel f r None false s = (shred (s, []), []).
  Proof.
    induction s as [|c s IH]; intros F f Hf.
    - destruct f as [|f]; [cbn in Hf; lia|]. rewrite step_none, step_true_nil; [reflexivity|apply nil_free].
    - apply sep_free_skip in F as (N & F). cbn [length] in Hf. destruct f as [|[|f]]; try lia. rewrite step_none, step_true by auto.
      rewrite IH by (auto; lia). rewrite shred_cons. pose proof (before_first_shred c s [] [] []) as B. rewrite !app_nil_r in B. f_equal. exact (f_equal snd B).
  Qed.
  Lemma split_shreds n s l y : splits separate (ne seps) n s l y -> n = None -> forall f, 2 * length s + 1 <= f ->
    split_any_fuel f r None false s = (flat_map shred l ++ shred (y, []), []).
  Proof.
    induction 1 as [s|n s F|n x w t l y Hn Lf O Sp IH]; intros En; subst; try discriminate.
    - intros f Hf. now apply free_shreds.
    - specialize (IH eq_refl). pose proof (one_split_nonempty _ _ _ _ (ne_nonempty seps) O) as Nw. clear Hn Sp. cbn [flat_map]. rewrite <- app_assoc.
      induction x as [|c x IHx]; intros f Hf.
      + cbn [app] in *. rewrite app_length in Hf. assert (0 < length w) by (destruct w; [congruence|cbn; lia]). destruct f as [|f]; [lia|].
        rewrite step_cut by auto. rewrite IH by lia. reflexivity.
      + cbn [app length] in Hf. cbn [app]. destruct f as [|[|f]]; try lia.
        assert (N : ~ sep_at (ne seps) (c :: x ++ w ++ t) 0) by (apply (Lf 0); cbn; lia).
        rewrite step_none, step_true by auto. rewrite IHx.
        * rewrite shred_cons, before_first_shred. reflexivity.
        * intros i Hi H. apply (Lf (S i)); [cbn; lia|exact H].
        * lia.
  Qed.
  Lemma split_any_shreds s : split_any r None s =
    (flat_map shred (fst (re_split (separators_re (ne seps) separate) None s)) ++ shred (snd (re_split (separators_re (ne seps) separate) None s), []), []).
  Proof. unfold split_any. eapply split_shreds; [apply split_spec, ne_nonempty|reflexivity|lia]. Qed.
End Split.
Lemma fst_combine {A B} (m : list A) : forall l : list B, length m = length l -> map fst (combine m l) = m.
Proof. induction m as [|a m IH]; intros [|b l]; cbn; try discriminate; auto. intros [= L]. now rewrite IH. Qed.
Lemma snd_combine {A B} (m : list A) : forall l : list B, length m = length l -> map snd (combine m l) = l.
Proof. induction m as [|a m IH]; intros [|b l]; cbn; try discriminate; auto. intros [= L]. now rewrite IH. Qed.
Lemma shred_fst x w : map fst (shred (x, w)) = [] :: map (fun c => [c]) x.
Proof. unfold shred. apply fst_combine. cbn [fst snd]. rewrite app_length. cbn. rewrite !map_length. lia. Qed.

(** a pattern that does not match the empty string: the two models of re.split agree *)
Section Agree.
  Variable r : re.
  Hypothesis NE : forall s s' g, rel r s [] s' g -> length s' < length s.
  Lemma match_from_agrees again s : match_from again r s = option_map snd (re_match r s).
  Proof.
    unfold match_from, re_match. rewrite <- (rmatch_map _ _ snd). apply rmatch_ext. intros s' g' R. apply NE in R.
    replace (length s' =? length s) with false by (symmetry; apply Nat.eqb_neq; lia). now rewrite andb_false_r.
  Qed.
  Lemma search_from_agrees again s : search_from again r s = re_search r s.
  Proof.
    revert again. induction s as [|c s IH]; intros again; cbn [search_from re_search]; rewrite match_from_agrees; destruct (re_match r _) as [[g t]|]; cbn [option_map snd]; auto. now rewrite IH.
  Qed.
  Lemma search_shorter s b m a : re_search r s = Some (b, m, a) -> m <> [] /\ length a < length s.
  Proof.
    intros E. pose proof (search_gen r s) as S. rewrite E in S. destruct S as (-> & (g & R) & _). apply NE in R. rewrite !app_length in *. split; [|lia]. destruct m; [cbn in R; lia|discriminate].
  Qed.
  Lemma fuel_agrees : forall f f' n again s, length s <= f -> length s <= f' -> split_any_fuel f r n again s = re_split_fuel f' r n s.
  Proof.
    assert (Z : re_search r [] = None).
    { destruct (re_search r []) as [[[b m] a]|] eqn:E; auto. apply search_shorter in E as (_ & E). cbn in E. lia. }
    induction f as [|f IH]; intros f' n again s H H'.
    - destruct s; [|cbn in H; lia]. destruct f'; cbn [split_any_fuel re_split_fuel]; auto. rewrite Z. now destruct n as [[|n]|].
    - destruct f' as [|f']; [destruct s; [|cbn in H'; lia]|]; cbn [split_any_fuel re_split_fuel]; rewrite search_from_agrees; [rewrite Z; now destruct n as [[|n]|]|].
      destruct (re_search r s) as [[[b m] a]|] eqn:E; [|reflexivity]. apply search_shorter in E as (N & L).
      rewrite (IH f' (option_map pred n) (is_nil m) a) by lia. reflexivity.
  Qed.
  Lemma split_any_agrees n s : split_any r n s = re_split r n s.
  Proof. apply fuel_agrees; lia. Qed.
End Agree.
Lemma separators_shorter seps separate s s' g g' : nonempty seps -> rel (separators_re seps separate) s g s' g' -> length s' < length s.
Proof.
  intros N R. assert (X : exists v, v <> [] /\ s = v ++ s').
  { unfold separators_re in R. destruct separate.
    - apply rel_alternatives in R as (v & Iv & E & _). exists v. split; auto. rewrite in_sort in Iv. eapply nonempty_in; eauto.
    - apply rel_seq in R as (s1 & g1 & R1 & R2). apply rel_alternatives in R1 as (v & Iv & E & _). rewrite in_sort in Iv. pose proof (nonempty_in _ _ N Iv).
      apply rel_suffix in R2 as (p & ->). exists (v ++ p). split; [destruct v; [congruence|discriminate]|now rewrite <- app_assoc]. }
  destruct X as (v & Nv & ->). rewrite app_length. destruct v; [congruence|cbn; lia].
Qed.
(** without separators: the pattern matches the empty string only *)
Lemma split_any_nothing n s : split_any Eps n s = split_empty n s.
Proof.
  assert (E0 : forall s, search_from false Eps s = Some ([], [], s)) by (intros [|c s0]; cbn; now rewrite ?Nat.sub_diag).
  assert (E1 : forall c s, search_from true Eps (c :: s) = Some ([c], [], s)).
  { intros c s0. cbn [search_from]. unfold match_from at 1. cbn [rmatch]. rewrite Nat.eqb_refl. cbn [andb]. now rewrite E0. }
  assert (G : forall s f n, length s <= f ->
    split_any_fuel f Eps n true s = match n with None => (map (fun c => ([c], [])) s, []) | Some n => (firstn n (map (fun c => ([c], [])) s), skipn n s) end).
  { clear. intros s. induction s as [|c s IH]; intros f n Hf.
    - destruct f as [|f]; destruct n as [[|n]|]; reflexivity.
    - cbn [length] in Hf. destruct f as [|f]; [lia|]. cbn [split_any_fuel].
      assert (E1 : search_from true Eps (c :: s) = Some ([c], [], s)).
      { cbn [search_from]. unfold match_from at 1. cbn [rmatch]. rewrite Nat.eqb_refl. cbn [andb]. destruct s; cbn; now rewrite ?Nat.sub_diag. }
      destruct n as [[|n]|]; [reflexivity| |]; rewrite E1; cbn [is_nil option_map]; rewrite IH by lia; reflexivity. }
  unfold split_any, split_empty. replace (2 * length s + 1) with (S (2 * length s)) by lia. cbn [split_any_fuel]. destruct n as [[|n]|].
  - reflexivity.
  - rewrite E0. cbn [is_nil option_map]. rewrite G by lia. cbn [Init.Nat.pred firstn]. now rewrite Nat.sub_succ, Nat.sub_0_r.
  - rewrite E0. cbn [is_nil option_map]. rewrite G by lia. reflexivity.
Qed.
