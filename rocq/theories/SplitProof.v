(** The split functions compute the splits of SplitSpec.v. *)
From Verif Require Import SplitModel SplitSpec RegexProof PyBaseProof PyStrProof.

Definition nonempty (seps : list str) : Prop := Forall (fun w => w <> []) seps.

(** ---- literals and alternatives ---- *)
Fixpoint strip_prefix (w s : str) : option str :=
  match w, s with
  | [], _ => Some s
  | c :: w, d :: s => if (c =? d)%N then strip_prefix w s else None
  | _ :: _, [] => None
  end.
Lemma strip_prefix_spec w : forall s t, strip_prefix w s = Some t <-> s = w ++ t.
Proof.
  induction w as [|c w IH]; intros [|d s] t; cbn; try (split; [congruence|discriminate]).
  - split; intros H; [injection H as <-; reflexivity|congruence].
  - split; congruence.
  - destruct (N.eqb_spec c d) as [->|N].
    + rewrite IH. split; [now intros ->|now intros [= ->]].
    + split; [discriminate|congruence].
Qed.
Lemma rmatch_literal R w : forall s g (k : str -> groups -> option R),
  rmatch (literal w) s g k = match strip_prefix w s with Some t => k t g | None => None end.
Proof.
  unfold literal, Lit. induction w as [|c w IH]; intros s g k; cbn; auto.
  destruct s as [|d s]; auto. destruct (c =? d)%N; auto.
Qed.
Fixpoint first_some {A R} (f : A -> option R) (l : list A) : option R :=
  match l with [] => None | x :: t => match f x with Some y => Some y | None => first_some f t end end.
Lemma rmatch_alternatives R l s g (k : str -> groups -> option R) :
  rmatch (alternatives l) s g k = first_some (fun w => match strip_prefix w s with Some t => k t g | None => None end) l.
Proof.
  unfold alternatives. destruct l as [|w l]; cbn [map first_some]; [cbn; destruct s; reflexivity|].
  rewrite <- (rmatch_literal R w s g k).
  generalize (literal w). induction l as [|x l IH]; intros r; cbn [map fold_left first_some]; [destruct (rmatch r s g k); reflexivity|].
  rewrite IH. cbn [rmatch]. rewrite rmatch_literal. destruct (rmatch r s g k); reflexivity.
Qed.

(** the separator found at the start of s: the first in the list that fits *)
Fixpoint tok (l : list str) (s : str) : option (str * str) :=
  match l with
  | [] => None
  | w :: l => match strip_prefix w s with Some t => Some (w, t) | None => tok l s end
  end.
Definition total {R} (k : str -> groups -> option R) : Prop := forall s g, k s g <> None.
Lemma rmatch_tok R l s g (k : str -> groups -> option R) : (forall w t, In w l -> s = w ++ t -> k t g <> None) ->
  rmatch (alternatives l) s g k = match tok l s with Some (_, t) => k t g | None => None end.
Proof.
  intros T. rewrite rmatch_alternatives. induction l as [|w l IH]; cbn; auto.
  destruct (strip_prefix w s) as [t|] eqn:E.
  - destruct (k t g) eqn:K; auto. exfalso. apply strip_prefix_spec in E. apply (T w t); auto. left. reflexivity.
  - apply IH. intros w' t' I E'. apply (T w' t'); auto. right. exact I.
Qed.
Lemma sw_longer : strict_weak longer.
Proof.
  unfold strict_weak, longer. repeat split; intros *; rewrite ?Nat.ltb_lt, ?Nat.ltb_ge; lia.
Qed.
Lemma tok_none l s : tok l s = None <-> ~ sep_at l s 0.
Proof.
  unfold sep_at. cbn [skipn]. induction l as [|w l IH]; cbn.
  - split; auto. intros _ (w & t & I & _). exact I.
  - destruct (strip_prefix w s) as [t|] eqn:E.
    + split; [discriminate|]. intros H. exfalso. apply H. exists w, t. split; [now left|]. now apply strip_prefix_spec.
    + rewrite IH. split; intros H (w' & t & I & Q); apply H.
      * destruct I as [<-|I]; [|eauto]. apply strip_prefix_spec in Q. congruence.
      * exists w', t. auto.
Qed.
Lemma tok_some l s w t : tok l s = Some (w, t) -> s = w ++ t /\ In w l.
Proof.
  induction l as [|x l IH]; cbn; [discriminate|]. destruct (strip_prefix x s) as [t'|] eqn:E.
  - intros [= <- <-]. apply strip_prefix_spec in E. auto.
  - intros H. destruct (IH H). auto.
Qed.
Lemma in_sort seps w : In w (sort longer seps) <-> In w seps.
Proof. split; apply Permutation_in; [apply sort_perm|symmetry; apply sort_perm]. Qed.
Lemma sep_at_sort seps s i : sep_at (sort longer seps) s i <-> sep_at seps s i.
Proof. unfold sep_at. split; intros (w & t & I & E); exists w, t; rewrite in_sort in *; auto. Qed.
Lemma tok_longest seps s w t : tok (sort longer seps) s = Some (w, t) <-> s = w ++ t /\ longest seps w t.
Proof.
  assert (L : forall l, ascending longer l -> forall s w t, tok l s = Some (w, t) ->
     forall w' t', In w' l -> s = w' ++ t' -> length w' <= length w).
  { clear. unfold ascending. induction 1 as [|x l S IH F]; intros s w t H w' t' I E; [destruct I|]. cbn in H.
    destruct (strip_prefix x s) as [y|] eqn:Q.
    - injection H as -> ->. destruct I as [->|I]; auto. rewrite Forall_forall in F. specialize (F w' I).
      unfold longer in F. apply Nat.ltb_ge in F. exact F.
    - destruct I as [->|I]; [apply strip_prefix_spec in E; congruence|]. eapply IH; eauto. }
  pose proof (sort_sorted longer sw_longer seps) as S.
  assert (Fwd : forall s w t, tok (sort longer seps) s = Some (w, t) -> s = w ++ t /\ longest seps w t).
  { intros s0 w0 t0 H. destruct (tok_some _ _ _ _ H) as [-> I]. split; auto. split; [now apply in_sort|].
    intros w' t' I' E. eapply (L _ S _ _ _ H); [now apply in_sort|exact E]. }
  split; [apply Fwd|]. intros [-> [I M]].
  destruct (tok (sort longer seps) (w ++ t)) as [[w' t']|] eqn:E.
  - destruct (Fwd _ _ _ E) as [Q [I' M']].
    assert (Le : length w' <= length w) by (eapply M; eauto).
    assert (Ge : length w <= length w') by (eapply M'; [exact I|symmetry; exact Q]).
    assert (w = w').
    { apply (f_equal (firstn (length w))) in Q. rewrite firstn_app, Nat.sub_diag, firstn_all, app_nil_r in Q.
      replace (length w) with (length w') in Q by lia. now rewrite firstn_app, Nat.sub_diag, firstn_all, app_nil_r in Q. }
    subst w'. apply app_inv_head in Q. now subst.
  - exfalso. apply tok_none in E. apply E. apply sep_at_sort. exists w, t. auto.
Qed.

(** ---- one match of the pattern ---- *)
Lemma nonempty_in seps w : nonempty seps -> In w seps -> w <> [].
Proof. unfold nonempty. rewrite Forall_forall. auto. Qed.
(** greedy repetition with a continuation that accepts everything *)
Lemma star_greedy R seps s g (k : str -> groups -> option R) : nonempty seps -> total k ->
  exists w t, s = w ++ t /\ ((w = [] /\ ~ sep_at seps t 0) \/ run seps w t) /\
    rmatch (Star (alternatives (sort longer seps))) s g k = k t g.
Proof.
  intros NE T. cbn [rmatch]. match goal with |- context [?L (length _) _ _ = _] => set (loop := L) end.
  assert (G : forall n s, length s <= n -> exists w t, s = w ++ t /\ ((w = [] /\ ~ sep_at seps t 0) \/ run seps w t) /\ loop n s g = k t g).
  2:{ apply G. lia. }
  induction n as [|n IH]; intros s0 Hs.
  - exists [], s0. split; auto. split; auto. left. split; auto. destruct s0; [|cbn in Hs; lia].
    intros (w & t & I & E). cbn in E. symmetry in E. apply app_eq_nil in E. destruct E as [-> _]. exact (nonempty_in _ _ NE I eq_refl).
  - assert (TL : forall n, total (loop n)).
    { clear IH Hs s0. clear n. induction n as [|n IH]; intros s1 g1; [apply T|].
      change (loop (S n) s1 g1) with (match rmatch (alternatives (sort longer seps)) s1 g1 (fun s' g' => if length s' <? length s1 then loop n s' g' else None) with Some x => Some x | None => k s1 g1 end).
      destruct (rmatch _ _ _ _); [discriminate|apply T]. }
    change (loop (S n) s0 g) with (match rmatch (alternatives (sort longer seps)) s0 g (fun s' g' => if length s' <? length s0 then loop n s' g' else None) with Some x => Some x | None => k s0 g end).
    assert (Len : forall w t, In w (sort longer seps) -> s0 = w ++ t -> length t <? length s0 = true).
    { intros w t I ->. apply Nat.ltb_lt. rewrite app_length. rewrite in_sort in I. pose proof (nonempty_in _ _ NE I). destruct w; [congruence|cbn; lia]. }
    rewrite rmatch_tok.
    2:{ intros w t I E. rewrite (Len w t I E). apply TL. }
    destruct (tok (sort longer seps) s0) as [[w t]|] eqn:E.
    + destruct (tok_some _ _ _ _ E) as [Es I]. rewrite (Len w t I Es).
      apply tok_longest in E. destruct E as [_ Lg].
      destruct (IH t) as (w' & t' & -> & D & Q).
      { pose proof (Len _ _ I Es) as Q. apply Nat.ltb_lt in Q. lia. }
      exists (w ++ w'), t'. split; [now rewrite <- app_assoc|]. split.
      * right. destruct D as [[-> N]|D]; [rewrite app_nil_r; cbn in Lg; now constructor|]. now constructor.
      * rewrite Q. destruct (k t' g) eqn:K; auto. destruct (T _ _ K).
    + exists [], s0. split; auto. split; auto. left. split; auto. rewrite <- sep_at_sort. now apply tok_none.
Qed.
(** the pattern, matched at the start of s *)
Definition match_here (separate : bool) (seps : list str) (s : str) : option (groups * str) := re_match (separators_re seps separate) s.
Lemma match_spec separate seps s : nonempty seps ->
  match re_match (separators_re seps separate) s with
  | None => ~ sep_at seps s 0
  | Some (_, t) => exists w, s = w ++ t /\ one_split separate seps w t /\ w <> []
  end.
Proof.
  intros NE. unfold re_match, separators_re, one_split. destruct separate.
  - rewrite rmatch_tok by discriminate. destruct (tok _ s) as [[w t]|] eqn:E.
    + apply tok_longest in E. destruct E as [-> L]. exists w. split; auto. split; auto. destruct L as [I _]. now apply (nonempty_in seps).
    + apply tok_none in E. now rewrite sep_at_sort in E.
  - set (k := fun (s : str) (g : groups) => Some (g, s)).
    change (rmatch (Plus (alternatives (sort longer seps))) s [] k) with
      (rmatch (alternatives (sort longer seps)) s [] (fun s g => rmatch (Star (alternatives (sort longer seps))) s g k)).
    assert (T : total k) by (intros ? ?; discriminate).
    assert (TS : total (fun s g => rmatch (Star (alternatives (sort longer seps))) s g k)).
    { intros s1 g1. destruct (star_greedy _ seps s1 g1 k NE T) as (w & t & _ & _ & ->). apply T. }
    rewrite rmatch_tok by (intros; apply TS).
    destruct (tok _ s) as [[w t]|] eqn:E.
    + apply tok_longest in E. destruct E as [-> L].
      destruct (star_greedy _ seps t [] k NE T) as (w' & t' & -> & D & ->). cbn. exists (w ++ w').
      split; [now rewrite <- app_assoc|]. pose proof (nonempty_in _ _ NE (proj1 L)) as Nw. split; [|destruct w; [congruence|discriminate]].
      destruct D as [[-> N]|D]; [rewrite app_nil_r; cbn in L; now constructor|]. now constructor.
    + apply tok_none in E. now rewrite sep_at_sort in E.
Qed.
Lemma run_sep seps w t : run seps w t -> sep_at seps (w ++ t) 0.
Proof.
  intros H. destruct H as [w t [I _] _|w w' t [I _] _]; [exists w, t; auto|]. exists w, (w' ++ t). split; auto. cbn. now rewrite app_assoc.
Qed.
Lemma one_split_sep separate seps w t : one_split separate seps w t -> sep_at seps (w ++ t) 0.
Proof. destruct separate; [intros [I _]; exists w, t; auto|apply run_sep]. Qed.

(** ---- search ---- *)
Lemma sep_at_cons seps c s i : sep_at seps (c :: s) (S i) <-> sep_at seps s i.
Proof. unfold sep_at. cbn. tauto. Qed.
Lemma search_spec separate seps s : nonempty seps ->
  match re_search (separators_re seps separate) s with
  | None => sep_free seps s
  | Some (x, w, t) => s = x ++ w ++ t /\ w <> [] /\ one_split separate seps w t /\ (forall i, i < length x -> ~ sep_at seps s i)
  end.
Proof.
  intros NE. induction s as [|c s IH].
  - cbn [re_search]. pose proof (match_spec separate seps [] NE) as M. destruct (re_match _ []) as [[g t]|].
    + destruct M as (w & E & O & N). symmetry in E. apply app_eq_nil in E. destruct E. congruence.
    + intros i (w & t & I & E). apply M. exists w, t. split; auto. destruct i; exact E.
  - pose proof (match_spec separate seps (c :: s) NE) as M.
    change (re_search (separators_re seps separate) (c :: s)) with
      (match re_match (separators_re seps separate) (c :: s) with
       | Some (_, rest) => Some ([], firstn (length (c :: s) - length rest) (c :: s), rest)
       | None => match re_search (separators_re seps separate) s with Some (before, m, after) => Some (c :: before, m, after) | None => None end end).
    destruct (re_match _ (c :: s)) as [[g t]|].
    + destruct M as (w & E & O & N). rewrite E. rewrite app_length.
      replace (length w + length t - length t) with (length w) by lia.
      rewrite firstn_app, Nat.sub_diag, firstn_all, app_nil_r. repeat split; auto. intros i Hi. cbn in Hi. lia.
    + destruct (re_search _ s) as [[[x w] t]|].
      * destruct IH as (-> & N & O & L). repeat split; auto. intros [|i] Hi; auto. rewrite sep_at_cons. apply L. cbn in Hi. lia.
      * intros [|i]; auto. rewrite sep_at_cons. apply IH.
Qed.

(** ---- split ---- *)
Lemma re_split_spec separate seps : nonempty seps -> forall fuel n s, length s <= fuel ->
  let '(l, y) := re_split_fuel fuel (separators_re seps separate) n s in splits separate seps n s l y.
Proof.
  intros NE. induction fuel as [|f IH]; intros n s Hs.
  - destruct s; [|cbn in Hs; lia]. cbn. apply split_none. intros i (w & t & I & E). rewrite skipn_nil in E.
    symmetry in E. apply app_eq_nil in E. destruct E. exact (nonempty_in _ _ NE I H).
  - cbn [re_split_fuel]. pose proof (search_spec separate seps s NE) as S.
    assert (G : n <> Some 0 -> let '(l, y) := match re_search (separators_re seps separate) s with
      | None => ([], s) | Some (before, m, after) => let '(l, y) := re_split_fuel f (separators_re seps separate) (option_map pred n) after in ((before, m) :: l, y) end
      in splits separate seps n s l y).
    { intros Hn. destruct (re_search _ s) as [[[x w] t]|]; [|now apply split_none].
      destruct S as (-> & N & O & L). specialize (IH (option_map pred n) t). destruct (re_split_fuel f _ _ t) as [l y].
      apply split_cut; auto. apply IH. rewrite !app_length in Hs. destruct w; [congruence|cbn in Hs; lia]. }
    destruct n as [[|n]|]; [apply split_limit|apply G; discriminate|apply G; discriminate].
Qed.
Lemma split_spec separate seps n s : nonempty seps ->
  splits separate seps n s (fst (re_split (separators_re seps separate) n s)) (snd (re_split (separators_re seps separate) n s)).
Proof.
  intros NE. unfold re_split. pose proof (re_split_spec separate seps NE (length s) n s (le_n _)) as H.
  destruct (re_split_fuel _ _ n s). exact H.
Qed.

(** ---- the specification determines the result ---- *)
Lemma app_len_inj {A} (a b c d : list A) : length a = length c -> a ++ b = c ++ d -> a = c /\ b = d.
Proof.
  revert c. induction a as [|x a IH]; intros [|y c]; cbn; try discriminate; auto. intros L E. injection L as L. injection E as -> E.
  destruct (IH c L E). subst. auto.
Qed.
Lemma longest_fun seps w t w' t' : longest seps w t -> longest seps w' t' -> w ++ t = w' ++ t' -> w = w' /\ t = t'.
Proof.
  intros [I M] [I' M'] E. apply app_len_inj; auto.
  assert (length w' <= length w) by (eapply M; eauto). assert (length w <= length w') by (eapply M'; [exact I|symmetry; exact E]). lia.
Qed.
Lemma run_fun seps w t : run seps w t -> forall w' t', run seps w' t' -> w ++ t = w' ++ t' -> w = w' /\ t = t'.
Proof.
  induction 1 as [w t L N|w v t L R IH]; intros w' t' H E; inversion H as [a b L' N'|a b c L' R']; subst.
  - eapply longest_fun; eauto.
  - exfalso. rewrite <- app_assoc in E. destruct (longest_fun _ _ _ _ _ L L' E) as [-> ->]. apply N. now apply run_sep.
  - exfalso. rewrite <- app_assoc in E. destruct (longest_fun _ _ _ _ _ L L' E) as [-> <-]. apply N'. now apply run_sep.
  - rewrite <- !app_assoc in E. destruct (longest_fun _ _ _ _ _ L L' E) as [-> E2]. destruct (IH _ _ R' E2). subst. auto.
Qed.
Lemma one_split_fun separate seps w t w' t' : one_split separate seps w t -> one_split separate seps w' t' -> w ++ t = w' ++ t' -> w = w' /\ t = t'.
Proof. destruct separate; cbn; [apply longest_fun|]. intros. eapply run_fun; eauto. Qed.
Lemma sep_at_skip seps x s i : sep_at seps (x ++ s) (length x + i) <-> sep_at seps s i.
Proof.
  unfold sep_at. rewrite skipn_app. replace (length x + i - length x) with i by lia.
  rewrite (skipn_all2 x) by lia. reflexivity.
Qed.
Lemma splits_fun separate seps n s l y : splits separate seps n s l y -> forall s' l' y', s = s' -> splits separate seps n s' l' y' -> l = l' /\ y = y'.
Proof.
  induction 1 as [s|n s F|n x w t l y Hn Lf O Sp IH]; intros s' l' y' E H.
  - subst s'. inversion H; subst; auto. congruence.
  - subst s'. inversion H as [| |n' x0 w t l y Hn Lf O Sp]; subst; auto.
    exfalso. apply (F (length x0 + 0)). apply sep_at_skip. eapply one_split_sep; eauto.
  - inversion H as [|n' s0 F|n' x' w0 t0 l0 y0 Hn' Lf' O' Sp']; subst; try congruence.
    + exfalso. apply (F (length x + 0)). apply sep_at_skip. eapply one_split_sep; eauto.
    + match goal with Q : _ ++ _ ++ _ = _ ++ _ ++ _ |- _ => rename Q into E end. symmetry in E.
      assert (Lx : length x = length x').
      { destruct (Nat.lt_trichotomy (length x) (length x')) as [Lt|[Q|Gt]]; auto; exfalso.
        - apply (Lf' (length x)); auto. rewrite <- E. replace (length x) with (length x + 0) by lia. apply sep_at_skip. eapply one_split_sep; eauto.
        - apply (Lf (length x')); auto. rewrite E. replace (length x') with (length x' + 0) by lia. apply sep_at_skip. eapply one_split_sep; eauto. }
      destruct (app_len_inj _ _ _ _ Lx E) as [-> E2].
      destruct (one_split_fun _ _ _ _ _ _ O O' E2) as [-> ->].
      destruct (IH _ _ _ eq_refl Sp') as [-> ->]. auto.
Qed.
(** it depends only on which separators there are *)
Definition same_seps (a b : list str) : Prop := forall w, In w a <-> In w b.
Lemma sep_at_same a b s i : same_seps a b -> sep_at a s i -> sep_at b s i.
Proof. intros S (w & t & I & E). exists w, t. split; auto. now apply S. Qed.
Lemma longest_same a b w t : same_seps a b -> longest a w t -> longest b w t.
Proof. intros S [I M]. split; [now apply S|]. intros w' t' I'. apply M. now apply S. Qed.
Lemma same_sym a b : same_seps a b -> same_seps b a. Proof. intros S w. symmetry. apply S. Qed.
Lemma run_same a b w t : same_seps a b -> run a w t -> run b w t.
Proof.
  intros S. induction 1 as [w t L N|w w' t L R IH]; [apply run_last|apply run_more]; auto; try (eapply longest_same; eauto; fail).
  intros H. apply N. eapply sep_at_same; [apply same_sym|]; eauto.
Qed.
Lemma splits_same separate a b n s l y : same_seps a b -> splits separate a n s l y -> splits separate b n s l y.
Proof.
  intros S. induction 1 as [s|n s F|n x w t l y Hn Lf O Sp IH].
  - apply split_limit.
  - apply split_none. intros i H. apply (F i). eapply sep_at_same; [apply same_sym|]; eauto.
  - apply split_cut; auto.
    + intros i Hi H. apply (Lf i Hi). eapply sep_at_same; [apply same_sym|]; eauto.
    + destruct separate; cbn in *; [eapply longest_same|eapply run_same]; eauto.
Qed.
Lemma re_split_same separate a b n s : nonempty a -> nonempty b -> same_seps a b ->
  re_split (separators_re a separate) n s = re_split (separators_re b separate) n s.
Proof.
  intros Na Nb S. pose proof (splits_same _ _ _ _ _ _ _ S (split_spec separate a n s Na)) as H1.
  pose proof (split_spec separate b n s Nb) as H2. destruct (splits_fun _ _ _ _ _ _ H1 _ _ _ eq_refl H2) as [E1 E2].
  rewrite (surjective_pairing (re_split (separators_re a separate) n s)), E1, E2. symmetry. apply surjective_pairing.
Qed.

(** ---- basic consequences ---- *)
Lemma splits_concat separate seps n s l y : splits separate seps n s l y -> concat (alternating l y) = s.
Proof.
  unfold alternating. induction 1 as [s|n s F|n x w t l y Hn Lf O Sp IH]; cbn in *; rewrite ?app_nil_r; auto. now rewrite IH.
Qed.
Lemma one_split_nonempty separate seps w t : nonempty seps -> one_split separate seps w t -> w <> [].
Proof.
  intros NE. destruct separate; cbn.
  - intros [I _]. now apply (nonempty_in seps).
  - destruct 1 as [w t [I _] _|w w' t [I _] _]; [now apply (nonempty_in seps)|]. pose proof (nonempty_in _ _ NE I). destruct w; [congruence|discriminate].
Qed.
