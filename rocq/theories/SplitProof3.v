(** Consequences of the split specification; multistrip; normalize_whitespace. *)
From Verif Require Import SplitModel SplitSpec SplitProof SplitProof2 RegexProof PyBaseProof PyStrProof.

(** ---- unlimited splits leave no separator (C32) ---- *)
Lemma sep_at_app seps x s i : sep_at seps x i -> i <= length x -> sep_at seps (x ++ s) i.
Proof.
  intros (w & t & I & E) L. exists w, (t ++ s). split; auto. rewrite skipn_app, E.
  replace (i - length x) with 0 by lia. cbn. now rewrite <- app_assoc.
Qed.
Lemma sep_at_bound seps x i : nonempty seps -> sep_at seps x i -> i < length x.
Proof.
  intros NE (w & t & I & E). destruct (Nat.lt_ge_cases i (length x)) as [|G]; auto. rewrite skipn_all2 in E by lia.
  symmetry in E. apply app_eq_nil in E. destruct E. destruct (nonempty_in _ _ NE I H).
Qed.
Lemma run_of_seps seps w t : run seps w t -> of_seps seps w.
Proof.
  induction 1 as [w t [I _] _|w w' t [I _] _ (l & F & ->)].
  - exists [w]. cbn. rewrite app_nil_r. auto. - exists (w :: l). cbn. auto.
Qed.
Lemma rrun_of_seps seps t w : rrun seps t w -> of_seps seps w.
Proof.
  induction 1 as [t w [I _] _|t w w' [I _] _ (l & F & ->)].
  - exists [w]. cbn. rewrite app_nil_r. auto.
  - exists (l ++ [w]). rewrite concat_app. cbn. rewrite app_nil_r. split; auto. apply Forall_app. auto.
Qed.
Definition cut_ok (separate : bool) (seps : list str) (w : str) : Prop := w <> [] /\ if separate then In w seps else of_seps seps w.
Lemma splits_clean separate seps s l y : nonempty seps -> forall n, splits separate seps n s l y ->
  Forall (fun p => sep_free seps (fst p) /\ cut_ok separate seps (snd p)) l /\ (n = None -> sep_free seps y).
Proof.
  intros NE n. induction 1 as [s|n s F|n x w t l y Hn Lf O Sp [IH1 IH2]].
  - split; auto. discriminate.
  - auto.
  - split; [|intros ->; auto]. constructor; auto. cbn. split.
    + intros i H. pose proof (sep_at_bound _ _ _ NE H). apply (Lf i); auto. apply sep_at_app; auto. lia.
    + split; [eapply one_split_nonempty; eauto|]. destruct separate; [apply O|]. eapply run_of_seps. exact O.
Qed.
Lemma rsplits_clean separate seps s l y : nonempty seps -> forall n, rsplits separate seps n s l y -> n <> Some 0 ->
  sep_free seps y /\ Forall (fun p => cut_ok separate seps (snd p)) l /\
  (n = None -> Forall (fun p => sep_free seps (fst p)) l).
Proof.
  intros NE n. induction 1 as [s|n s F|n x w t y l Hn Lf O Sp IH]; intros Hn'; [congruence|auto|].
  assert (W : cut_ok separate seps w).
  { destruct separate; cbn in O.
    - destruct O as [I _]. split; auto. eapply nonempty_in; eauto.
    - split; [|eapply rrun_of_seps; exact O]. destruct O as [t w [I _] _|t w w' [I _] _]; [eapply nonempty_in; eauto|].
      pose proof (nonempty_in _ _ NE I). destruct w'; auto. discriminate. }
  split; [|split].
  - intros i (v & u & I & E).
    pose proof (firstn_skipn i x) as Q. rewrite E in Q. remember (firstn i x) as p eqn:Hp. clear Hp E. subst x.
    apply (Lf (length u)).
    + rewrite !app_length. pose proof (nonempty_in _ _ NE I). destruct v; [congruence|cbn; lia].
    + exists v, (t ++ w ++ p). split; auto. rewrite !app_length. split; [|lia].
      replace (t ++ w ++ p ++ v ++ u) with (((t ++ w ++ p) ++ v) ++ u) by (now rewrite <- !app_assoc).
      rewrite firstn_app, !app_length.
      replace (length t + (length w + (length p + (length v + length u))) - length u - (length t + (length w + length p) + length v)) with 0 by lia.
      cbn [firstn]. rewrite app_nil_r. apply firstn_all2. rewrite !app_length. lia.
  - apply Forall_app. split; [|constructor; [exact W|constructor]]. destruct n as [[|[|n]]|]; try congruence.
    + cbn in Sp. inversion Sp; subst; auto; congruence.
    + apply IH. discriminate.
    + apply IH. discriminate.
  - intros ->. destruct IH as (A & B & C); [discriminate|]. apply Forall_app. split; auto.
Qed.

(** ---- limits (C33) ---- *)
Lemma cut_unique separate seps x w t x' w' t' :
  (forall i, i < length x -> ~ sep_at seps (x ++ w ++ t) i) -> one_split separate seps w t ->
  (forall i, i < length x' -> ~ sep_at seps (x' ++ w' ++ t') i) -> one_split separate seps w' t' ->
  x ++ w ++ t = x' ++ w' ++ t' -> x = x' /\ w = w' /\ t = t'.
Proof.
  intros Lf O Lf' O' E.
  assert (Lx : length x = length x').
  { destruct (Nat.lt_trichotomy (length x) (length x')) as [Lt|[Q|Gt]]; auto; exfalso.
    - apply (Lf' (length x)); auto. rewrite <- E. replace (length x) with (length x + 0) by lia. apply sep_at_skip. eapply one_split_sep; eauto.
    - apply (Lf (length x')); auto. rewrite E. replace (length x') with (length x' + 0) by lia. apply sep_at_skip. eapply one_split_sep; eauto. }
  destruct (app_len_inj _ _ _ _ Lx E) as [-> E2]. destruct (one_split_fun _ _ _ _ _ _ O O' E2) as [-> ->]. auto.
Qed.
Lemma splits_limit separate seps o s l y : splits separate seps o s l y -> forall n L Y, o = Some n ->
  splits separate seps None s L Y -> l = firstn n L /\ y = concat (alternating (skipn n L) Y).
Proof.
  induction 1 as [s|o s F|o x w t l y Hn Lf O Sp IH]; intros n L Y En H; [injection En as <-|subst o|subst o].
  - cbn [firstn skipn]. rewrite (splits_concat _ _ _ _ _ _ H). auto. 
  - assert (G : splits separate seps None s [] s) by now apply split_none.
    destruct (splits_fun _ _ _ _ _ _ H _ _ _ eq_refl G) as [-> ->]. rewrite firstn_nil, skipn_nil. cbn. now rewrite app_nil_r.
  - inversion H as [|o' s0 F|o' x' w' t' L' Y' Hn' Lf' O' Sp']; subst.
    + exfalso. apply (F (length x + 0)). apply sep_at_skip. eapply one_split_sep; eauto.
    + match goal with Q : _ ++ _ ++ _ = _ ++ _ ++ _ |- _ => rename Q into E end. symmetry in E.
      destruct (cut_unique _ _ _ _ _ _ _ _ Lf O Lf' O' E) as (-> & -> & ->).
      destruct n as [|n]; [congruence|]. cbn [option_map pred] in *. destruct (IH n L' Y eq_refl Sp') as [-> ->]. auto.
Qed.
Lemma firstn_alternating n l y : n <= length l -> firstn (2 * n) (alternating l y) = flat_map (fun q => [fst q; snd q]) (firstn n l) /\
  skipn (2 * n) (alternating l y) = alternating (skipn n l) y.
Proof.
  unfold alternating. revert l. induction n as [|n IH]; intros l L; [auto|]. destruct l as [|[a b] l]; [cbn in L; lia|].
  replace (2 * S n) with (S (S (2 * n))) by lia. cbn [flat_map app firstn skipn fst snd]. destruct (IH l) as [-> ->]; auto. cbn in L. lia.
Qed.
Lemma alternating_length l y : length (alternating l y) = 2 * length l + 1.
Proof. unfold alternating. rewrite app_length. cbn. enough (length (flat_map (fun q : str * str => [fst q; snd q]) l) = 2 * length l) by lia. induction l; cbn in *; lia. Qed.
Lemma splits_limit_alternating separate seps s L Y n l y : splits separate seps None s L Y -> splits separate seps (Some n) s l y ->
  alternating l y = if 2 * n <? length (alternating L Y) then firstn (2 * n) (alternating L Y) ++ [concat (skipn (2 * n) (alternating L Y))] else alternating L Y.
Proof.
  intros H1 H2. destruct (splits_limit _ _ _ _ _ _ H2 n L Y eq_refl H1) as [-> ->].
  rewrite alternating_length. destruct (Nat.ltb_spec (2 * n) (2 * length L + 1)) as [Lt|Ge].
  - destruct (firstn_alternating n L Y) as [-> ->]; [lia|]. reflexivity.
  - rewrite firstn_all2, skipn_all2 by lia. unfold alternating at 2. cbn. now rewrite app_nil_r.
Qed.

(** ---- merged separators (C34) ---- *)
Lemma splits_inner_nonempty seps s l y n : nonempty seps -> splits false seps n s l y -> Forall (fun p => fst p <> []) (tl l).
Proof.
  intros NE. induction 1 as [s|o s F|o x w t l y Hn Lf O Sp IH]; cbn; auto.
  inversion Sp as [| |o' x' w' t' L' Y' Hn' Lf' O' Sp']; subst; auto. cbn in IH. constructor; auto. cbn. intros ->.
  assert (N : forall w t, run seps w t -> ~ sep_at seps t 0) by (induction 1; auto).
  apply (N _ _ O). cbn. eapply one_split_sep; eauto.
Qed.
Lemma rsplits_inner_nonempty seps s l y n : nonempty seps -> rsplits false seps n s l y -> Forall (fun p => fst p <> []) (tl l).
Proof.
  intros NE. induction 1 as [s|o s F|o x w t y l Hn Lf O Sp IH]; cbn; auto.
  destruct l as [|p l]; cbn in *; auto. apply Forall_app. split; auto. constructor; auto. cbn. intros ->.
  inversion Sp as [| |o' x' w' t' y' l' Hn' Lf' O' Sp' E1 E2 E3]; subst.
  assert (N : forall w t, rrun seps t w -> ~ sep_ends seps t 0) by (induction 1; auto).
  apply (N _ _ O). cbn in O'. rewrite app_nil_r.
  assert (M : forall w t, rrun seps t w -> exists v u, In v seps /\ t ++ w = u ++ v).
  { induction 1 as [? ? [I _] _|? ? ? [I _] _ _]; [eauto|]. eexists _, _. split; [exact I|]. rewrite app_assoc. reflexivity. }
  destruct (M _ _ O') as (v & u & I & E). exists v, u. split; auto. rewrite Nat.sub_0_r, firstn_all. split; auto. lia.
Qed.

(** ---- multistrip (C36) ---- *)
Lemma search_gen r s : match re_search r s with
  | Some (b, m, a) => s = b ++ m ++ a /\ (exists g, rel r (m ++ a) [] a g) /\ forall i s' g, i < length b -> ~ rel r (skipn i s) [] s' g
  | None => forall i s' g, ~ rel r (skipn i s) [] s' g
  end.
Proof.
  assert (M : forall s, match re_match r s with Some (g, t) => rel r s [] t g | None => forall s' g, ~ rel r s [] s' g end).
  { clear. intros s. unfold re_match. destruct (rmatch r s [] _) as [[g t]|] eqn:E.
    - apply rmatch_sound in E. destruct E as (s' & g' & R & Q). injection Q as -> ->. exact R.
    - intros s' g R. eapply rmatch_complete in R; [exact (R E)|discriminate]. }
  induction s as [|c s IH].
  - cbn [re_search]. specialize (M []). destruct (re_match r []) as [[g t]|].
    + destruct (rel_suffix _ _ _ _ _ M) as [p E]. symmetry in E. apply app_eq_nil in E. destruct E as [-> ->]. cbn. split; auto. split; eauto. intros; lia.
    + intros i s' g. rewrite skipn_nil. apply M.
  - change (re_search r (c :: s)) with (match re_match r (c :: s) with
       | Some (_, rest) => Some ([], firstn (length (c :: s) - length rest) (c :: s), rest)
       | None => match re_search r s with Some (before, m, after) => Some (c :: before, m, after) | None => None end end).
    specialize (M (c :: s)). destruct (re_match r (c :: s)) as [[g t]|].
    + destruct (rel_suffix _ _ _ _ _ M) as [p E]. rewrite E in M |- *. rewrite app_length.
      replace (length p + length t - length t) with (length p) by lia. rewrite firstn_app, Nat.sub_diag, firstn_all, app_nil_r.
      split; auto. split; eauto. intros i s' g' H. cbn in H. lia.
    + destruct (re_search r s) as [[[b m] a]|].
      * destruct IH as (-> & R & L). split; auto. split; auto. intros [|i] s' g H; [apply M|]. cbn. apply L. cbn in H. lia.
      * intros [|i] s' g; [apply M|]. apply IH.
Qed.
Lemma rel_literal w s g s' g' : rel (literal w) s g s' g' <-> s = w ++ s' /\ g' = g.
Proof.
  unfold literal, Lit. revert s g s' g'. induction w as [|c w IH]; intros s g s' g'; cbn.
  - split; [inversion 1; auto|intros [-> ->]; constructor].
  - split.
    + intros H. apply rel_seq in H. destruct H as (s1 & g1 & H1 & H2). apply rel_chr in H1. destruct H1 as (d & -> & E & ->).
      apply N.eqb_eq in E. subst d. apply IH in H2. destruct H2 as [-> ->]. auto.
    + intros [-> ->]. econstructor; [apply RelChr; apply N.eqb_refl|]. apply IH. auto.
Qed.
Lemma rel_alternatives l s g s' g' : rel (alternatives l) s g s' g' <-> exists w, In w l /\ s = w ++ s' /\ g' = g.
Proof.
  unfold alternatives. destruct l as [|w l]; cbn [map].
  - split; [intros H; apply rel_chr in H; destruct H as (c & _ & E & _); discriminate|intros (w & [] & _)].
  - assert (G : forall l r, rel (fold_left Alt (map literal l) r) s g s' g' <-> rel r s g s' g' \/ exists w, In w l /\ s = w ++ s' /\ g' = g).
    { clear. induction l as [|x l IH]; intros r; cbn [map fold_left].
      - split; auto. intros [H|(w & [] & _)]; auto.
      - rewrite IH. split.
        + intros [H|(w & I & E)]; [|right; exists w; cbn; tauto]. apply rel_alt in H. destruct H as [H|H]; auto.
          apply rel_literal in H. right. exists x. cbn. tauto.
        + intros [H|(w & [<-|I] & E)]; [left; now constructor|left; apply RelAltR; now apply rel_literal|right; eauto]. }
    rewrite G, rel_literal. cbn. split.
    + intros [H|(x & I & E)]; [exists w; tauto|exists x; tauto].
    + intros (x & [<-|I] & E); [left; tauto|right; eauto].
Qed.
Lemma rel_star_alternatives l s g s' g' : nonempty l ->
  (rel (Star (alternatives l)) s g s' g' <-> exists ws, Forall (fun w => In w l) ws /\ s = concat ws ++ s' /\ g' = g).
Proof.
  intros NE. split.
  - intros H. remember (Star (alternatives l)) as r eqn:E. induction H; try discriminate.
    + exists []. auto.
    + injection E as ->. destruct IHrel2 as (ws & F & -> & ->); auto. apply rel_alternatives in H. destruct H as (w & I & -> & ->).
      exists (w :: ws). cbn. rewrite <- app_assoc. auto.
  - intros (ws & F & -> & ->). induction F as [|w ws I F IH]; cbn; [constructor|]. rewrite <- app_assoc.
    eapply RelStar1; [apply rel_alternatives; eauto| |exact IH]. pose proof (nonempty_in _ _ NE I). destruct w; [congruence|]. rewrite (app_length (c :: w)). cbn. lia.
Qed.
Definition strip_re (seps : list str) : re := Seq (separators_re seps false) Eol.
Lemma rel_strip seps s g s' g' : nonempty seps ->
  (rel (strip_re seps) s g s' g' <-> exists w ws, In w seps /\ Forall (fun w => In w seps) ws /\ s = w ++ concat ws ++ s' /\ at_eol s' = true /\ g' = g).
Proof.
  intros NE. assert (NE' : nonempty (sort longer seps)) by (unfold nonempty in *; rewrite Forall_forall in *; intros w I; apply NE; now rewrite in_sort in I).
  unfold strip_re, separators_re, Plus. split.
  - intros H. apply rel_seq in H. destruct H as (s1 & g1 & H1 & H2). inversion H2; subst.
    apply rel_seq in H1. destruct H1 as (s2 & g2 & H1 & H3). apply rel_alternatives in H1. destruct H1 as (w & I & -> & ->).
    apply rel_star_alternatives in H3; auto. destruct H3 as (ws & F & -> & ->). exists w, ws. rewrite in_sort in I.
    repeat split; auto. eapply Forall_impl; [|exact F]. intros x Hx. now rewrite in_sort in Hx.
  - intros (w & ws & I & F & -> & E & ->). econstructor; [|constructor; exact E]. econstructor.
    + apply rel_alternatives. exists w. split; [now rewrite in_sort|]. split; [reflexivity|auto].
    + apply rel_star_alternatives; auto. exists ws. split; auto. eapply Forall_impl; [|exact F]. intros x Hx. now rewrite in_sort.
Qed.
(** the right-hand strip *)
Definition strip_right (seps : list str) (s : str) : str := match re_search (strip_re seps) s with Some (b, _, _) => b | None => s end.
Lemma strip_right_spec seps s : nonempty seps -> exists b c,
  s = strip_right seps s ++ b ++ c /\ of_seps seps b /\ (c = [] \/ (c = [newline] /\ b <> [])) /\ ~ ends_with_sep seps (strip_right seps s).
Proof.
  intros NE. unfold strip_right. pose proof (search_gen (strip_re seps) s) as S. destruct (re_search _ s) as [[[x m] a]|].
  - destruct S as (-> & (g & R) & L). apply rel_strip in R; auto. destruct R as (w & ws & I & F & E & Ea & _).
    exists (w ++ concat ws), a. rewrite app_assoc in E. apply app_inv_tail in E. subst m. split; auto. split; [exists (w :: ws); auto|].
    pose proof (nonempty_in _ _ NE I) as Nw. split.
    + destruct a as [|c [|]]; cbn in Ea; auto; try discriminate. apply N.eqb_eq in Ea. right. subst. split; auto. destruct w; [congruence|discriminate].
    + intros (v & t & Iv & ->). pose proof (nonempty_in _ _ NE Iv) as Nv.
      apply (L (length t) a []); [rewrite app_length; destruct v; [congruence|cbn; lia]|].
      rewrite <- !app_assoc, skipn_app, skipn_all, Nat.sub_diag. cbn [app skipn].
      apply rel_strip; auto. exists v, (w :: ws). split; auto. split; auto. split; [cbn; now rewrite <- app_assoc|auto].
  - exists [], []. rewrite !app_nil_r. split; auto. split; [exists []; auto|]. split; auto.
    intros (v & t & Iv & ->). apply (S (length t) [] []). rewrite skipn_app, skipn_all, Nat.sub_diag. cbn [app skipn].
    apply rel_strip; auto. exists v, []. cbn. rewrite app_nil_r. auto.
Qed.
Definition strip_left (seps : list str) (s : str) : str := match re_match (separators_re seps false) s with Some (_, t) => t | None => s end.
Lemma strip_left_spec seps s : nonempty seps -> exists a, s = a ++ strip_left seps s /\ of_seps seps a /\ ~ starts_with_sep seps (strip_left seps s).
Proof.
  intros NE. unfold strip_left. pose proof (match_spec false seps s NE) as M. destruct (re_match _ s) as [[g t]|].
  - destruct M as (w & -> & R & _). exists w. split; auto. split; [eapply run_of_seps; exact R|].
    assert (N : forall w t, run seps w t -> ~ sep_at seps t 0) by (induction 1; auto).
    intros (v & u & I & E). apply (N _ _ R). exists v, u. auto.
  - exists []. split; auto. split; [exists []; auto|]. intros (v & u & I & E). apply M. exists v, u. auto.
Qed.
Lemma multistrip_eq s seps left right : seps <> [] -> nonempty seps ->
  multistrip s seps left right = Ok (let s := if left then strip_left seps s else s in if right then strip_right seps s else s).
Proof.
  intros NN NE. unfold multistrip. destruct seps as [|w seps]; [congruence|]. cbn [is_nil].
  assert (Ex : existsb is_nil (w :: seps) = false).
  { apply not_true_iff_false. intros H. apply existsb_exists in H. destruct H as (x & I & E). destruct x; [|discriminate]. exact (nonempty_in _ _ NE I eq_refl). }
  rewrite Ex. destruct left, right; reflexivity.
Qed.

(** ---- normalize_whitespace (C38) ---- *)
(** replace every maximal run of characters satisfying p; b: we are inside a run *)
Fixpoint squeeze (p : chr -> bool) (rep : str) (b : bool) (s : str) : str :=
  match s with
  | [] => []
  | c :: t => if p c then (if b then [] else rep) ++ squeeze p rep true t else c :: squeeze p rep false t
  end.
(** separators that amount to a character class *)
Definition class_like (p : chr -> bool) (seps : list str) : Prop :=
  (forall w, In w seps -> w <> [] /\ forallb p w = true) /\ (forall c, p c = true -> In [c] seps).
Lemma class_nonempty p seps : class_like p seps -> nonempty seps.
Proof. intros [A _]. apply Forall_forall. intros w I. now apply A. Qed.
Lemma squeeze_skip p rep x : forall s, forallb (fun c => negb (p c)) x = true -> squeeze p rep false (x ++ s) = x ++ squeeze p rep false s.
Proof. induction x as [|c x IH]; intros s H; cbn in *; auto. apply andb_true_iff in H. destruct H as [H1 H2]. apply negb_true_iff in H1. rewrite H1. f_equal. auto. Qed.
Lemma squeeze_run p rep w : forall s, forallb p w = true -> squeeze p rep true (w ++ s) = squeeze p rep true s.
Proof. induction w as [|c w IH]; intros s H; cbn in *; auto. apply andb_true_iff in H. destruct H as [H1 H2]. rewrite H1. cbn. auto. Qed.
Lemma squeeze_flag p rep s : match s with c :: _ => p c = false | [] => True end -> squeeze p rep true s = squeeze p rep false s.
Proof. destruct s as [|c s]; cbn; auto. intros ->. reflexivity. Qed.
Lemma join_cons rep x l : l <> [] -> join rep (x :: l) = x ++ rep ++ join rep l.
Proof. destruct l; [congruence|]. reflexivity. Qed.
Lemma join_cons_cons rep c w l : join rep ((c :: w) :: l) = c :: join rep (w :: l).
Proof. destruct l; reflexivity. Qed.
Lemma join_squeeze p seps rep s l y : class_like p seps -> splits false seps None s l y -> join rep (map fst l ++ [y]) = squeeze p rep false s.
Proof.
  intros C H. remember None as o. induction H as [s|o s F|o x w t l y Hn Lf O Sp IH]; [discriminate| |]; subst o; cbn [map fst app].
  - cbn. symmetry. rewrite <- (app_nil_r s) at 1. rewrite squeeze_skip; [cbn; apply app_nil_r|].
    apply forallb_forall. intros c I. apply negb_true_iff. apply not_true_iff_false. intros P. apply in_split in I. destruct I as (a & b & ->).
    apply (F (length a + 0)). apply sep_at_skip. exists [c], b. split; auto. now apply C.
  - rewrite join_cons by (destruct (map fst l); discriminate). cbn in Sp. rewrite IH by reflexivity.
    assert (X : forallb (fun c => negb (p c)) x = true).
    { apply forallb_forall. intros c I. apply negb_true_iff. apply not_true_iff_false. intros P. apply in_split in I. destruct I as (a & b & ->).
      apply (Lf (length a)); [rewrite app_length; cbn; lia|]. rewrite <- app_assoc. replace (length a) with (length a + 0) by lia. apply sep_at_skip.
      exists [c], (b ++ w ++ t). split; auto. now apply C. }
    rewrite squeeze_skip by exact X. f_equal.
    assert (W : forallb p w = true).
    { destruct (run_of_seps _ _ _ O) as (ws & Fw & ->). clear - Fw C. induction Fw as [|v ws I F IH]; cbn; auto. rewrite forallb_app, IH.
      destruct C as [C _]. destruct (C v I) as [_ ->]. reflexivity. }
    pose proof (one_split_nonempty false seps w t (class_nonempty _ _ C) O) as Nw. destruct w as [|c w]; [congruence|].
    cbn in W. apply andb_true_iff in W. destruct W as [W1 W2]. cbn [app squeeze]. rewrite W1. f_equal. rewrite squeeze_run by exact W2.
    symmetry. apply squeeze_flag.
    assert (N : forall w t, run seps w t -> ~ sep_at seps t 0) by (induction 1; auto).
    specialize (N _ _ O). destruct t as [|d t]; auto. apply not_true_iff_false. intros P. apply N. exists [d], t. split; auto. now apply C.
Qed.
(** the fast path *)
Definition ends_with_space (s : str) : bool := starts_with_space (rev s).
Lemma ends_with_space_cons c s : ends_with_space (c :: s) = match s with [] => is_space c | _ => ends_with_space s end.
Proof.
  unfold ends_with_space. cbn [rev]. destruct s as [|d s]; cbn; auto. destruct (rev s); reflexivity.
Qed.
Lemma split_ws_cons c t : split_ws (c :: t) =
  if is_space c then split_ws t
  else if match t with d :: _ => is_space d | [] => true end then [c] :: split_ws t
  else match split_ws t with w :: l => (c :: w) :: l | [] => [[c]] end.
Proof.
  unfold split_ws. cbn [split_ws_aux].
  assert (Q : match t with d :: _ => is_space d | [] => true end = true <-> fst (split_ws_aux t) = []).
  { destruct t as [|d t]; cbn; [tauto|]. destruct (split_ws_aux t) as [w l]. destruct (is_space d); cbn; split; auto; discriminate. }
  destruct (split_ws_aux t) as [w l]. cbn [fst] in Q. destruct (is_space c); [reflexivity|].
  destruct (match t with d :: _ => is_space d | [] => true end).
  - destruct Q as [-> _]; auto.
  - destruct w; auto. destruct Q as [_ Q]. discriminate (Q eq_refl).
Qed.
Lemma split_ws_nonempty s : forallb is_space s = false -> split_ws s <> [].
Proof.
  induction s as [|c s IH]; cbn [forallb]; [discriminate|]. rewrite split_ws_cons. destruct (is_space c); cbn [andb]; auto. intros _.
  destruct (match s with d :: _ => is_space d | [] => true end); [discriminate|]. destruct (split_ws s); discriminate.
Qed.
Definition trail (s : str) : list str := if ends_with_space s then [[]] else [].
Lemma squeeze_all b rep s : forallb is_space s = true -> squeeze is_space rep b s = match s with [] => [] | _ => if b then [] else rep end.
Proof.
  assert (T : forall s, forallb is_space s = true -> squeeze is_space rep true s = []).
  { clear. induction s as [|c s IH]; cbn; auto. intros H. apply andb_true_iff in H. destruct H as [-> H]. cbn. auto. }
  destruct s as [|c s]; auto. cbn. intros H. apply andb_true_iff in H. destruct H as [-> H]. rewrite T by exact H. apply app_nil_r.
Qed.
Lemma fast_squeeze rep s : forallb is_space s = false ->
  squeeze is_space rep true s = join rep (split_ws s ++ trail s) /\
  squeeze is_space rep false s = join rep ((if starts_with_space s then [[]] else []) ++ split_ws s ++ trail s).
Proof.
  induction s as [|c t IH]; [discriminate|]. cbn [forallb starts_with_space squeeze]. rewrite split_ws_cons.
  assert (NT : forall l, forallb is_space t = false -> split_ws t ++ l <> []).
  { intros l H. pose proof (split_ws_nonempty t H). destruct (split_ws t); [congruence|discriminate]. }
  destruct (is_space c) eqn:Sc; cbn [andb].
  - intros Ht. destruct (IH Ht) as [IH1 IH2].
    assert (Tr : trail (c :: t) = trail t) by (unfold trail; rewrite ends_with_space_cons; destruct t; [discriminate|reflexivity]).
    rewrite Tr. cbn [app]. rewrite IH1. split; auto. rewrite join_cons; auto.
  - intros _. rewrite !app_nil_l || idtac.
    assert (E : c :: squeeze is_space rep false t = join rep ((if match t with d :: _ => is_space d | [] => true end then [c] :: split_ws t
       else match split_ws t with w :: l => (c :: w) :: l | [] => [[c]] end) ++ trail (c :: t))); [|split; exact E].
    destruct (forallb is_space t) eqn:Ht.
    + (* only spaces follow *)
      rewrite squeeze_all by exact Ht. unfold trail. rewrite ends_with_space_cons. destruct t as [|d t].
      * rewrite Sc. reflexivity.
      * assert (S0 : split_ws (d :: t) = []).
        { clear - Ht. revert Ht. generalize (d :: t). induction l as [|e l IH]; auto. cbn [forallb]. intros H. apply andb_true_iff in H. destruct H as [H1 H2].
          rewrite split_ws_cons, H1. auto. }
        rewrite S0. pose proof Ht as Ht2. cbn in Ht. apply andb_true_iff in Ht. destruct Ht as [Hd _]. rewrite Hd.
        assert (En : ends_with_space (d :: t) = true).
        { unfold ends_with_space, starts_with_space. destruct (rev (d :: t)) as [|e r] eqn:Er; [apply (f_equal (@length chr)) in Er; rewrite rev_length in Er; discriminate|].
          rewrite forallb_forall in Ht2. apply Ht2. rewrite in_rev, Er. now left. }
        rewrite En. cbn. now rewrite app_nil_r.
    + destruct (IH eq_refl) as [IH1 IH2]. rewrite IH2.
      assert (Tr : trail (c :: t) = trail t) by (unfold trail; rewrite ends_with_space_cons; destruct t; [discriminate|reflexivity]).
      rewrite Tr. destruct t as [|d t]; [discriminate|]. cbn [starts_with_space]. destruct (is_space d).
      * cbn [app]. rewrite !join_cons by auto. reflexivity.
      * cbn [app]. pose proof (split_ws_nonempty _ Ht) as Ns. destruct (split_ws (d :: t)) as [|w l]; [congruence|].
        cbn [app]. symmetry. apply join_cons_cons.
Qed.
Lemma squeeze_idem s : squeeze is_space [32%N] false (squeeze is_space [32%N] false s) = squeeze is_space [32%N] false s.
Proof.
  assert (G : forall s, squeeze is_space [32%N] true (squeeze is_space [32%N] true s) = squeeze is_space [32%N] true s /\
     (squeeze is_space [32%N] false (squeeze is_space [32%N] false s) = squeeze is_space [32%N] false s)).
  { induction s0 as [|c t [A B]]; cbn; auto. destruct (is_space c) eqn:E; cbn [app squeeze].
    - split; auto. change (is_space 32%N) with true. cbn [app]. rewrite A. reflexivity.
    - rewrite E, B. auto. }
  apply G.
Qed.
