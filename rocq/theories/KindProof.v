(** Separators that do not occur in the text do not matter; str and bytes (C135). *)
From Verif Require Import SplitModel SplitSpec SplitProof SplitProof2 SplitProof3 RegexProof PyBaseProof PyStrProof SplitProps.

Definition occurs (w s : str) : Prop := exists x y, s = x ++ w ++ y.
(** a and b have the same separators among the substrings of s *)
Definition alike_in (s : str) (a b : list str) : Prop := forall w, occurs w s -> (In w a <-> In w b).

Lemma occurs_sub w x s y : occurs w s -> occurs w (x ++ s ++ y).
Proof. intros (p & q & ->). exists (x ++ p), (q ++ y). now rewrite <- !app_assoc. Qed.
Lemma occurs_app w x s : occurs w s -> occurs w (x ++ s).
Proof. intros H. pose proof (occurs_sub w x s [] H) as O. now rewrite app_nil_r in O. Qed.
Lemma occurs_left w s y : occurs w s -> occurs w (s ++ y).
Proof. intros H. exact (occurs_sub w [] s y H). Qed.
Lemma alike_sub x s y a b : alike_in (x ++ s ++ y) a b -> alike_in s a b.
Proof. intros H w O. apply H. now apply occurs_sub. Qed.
Lemma alike_app x s a b : alike_in (x ++ s) a b -> alike_in s a b.
Proof. intros H w O. apply H. now apply occurs_app. Qed.
Lemma alike_sym s a b : alike_in s a b -> alike_in s b a.
Proof. intros H w O. symmetry. now apply H. Qed.
Lemma alike_skipn i s a b : alike_in s a b -> alike_in (skipn i s) a b.
Proof. intros H. apply (alike_app (firstn i s)). now rewrite firstn_skipn. Qed.

Lemma sep_at_alike s a b i : alike_in s a b -> sep_at a s i -> sep_at b s i.
Proof.
  intros H (w & t & I & E). exists w, t. split; auto. apply (H w); auto. exists (firstn i s), t. now rewrite <- E, firstn_skipn.
Qed.
Lemma longest_alike s a b w t : s = w ++ t -> alike_in s a b -> longest a w t -> longest b w t.
Proof.
  intros -> H [I M]. split; [apply (H w); auto; exists [], t; reflexivity|]. intros w' t' I' E. apply (M w' t'); auto. apply (H w'); auto. exists [], t'. exact E.
Qed.
Lemma run_alike a b w t : alike_in (w ++ t) a b -> run a w t -> run b w t.
Proof.
  intros H R. induction R as [w t L N|w w' t L R IH].
  - apply run_last; [eapply longest_alike; eauto|]. intros S. apply N. eapply sep_at_alike; [|exact S]. apply alike_sym. now apply alike_app in H.
  - rewrite <- app_assoc in H. apply run_more; [eapply longest_alike; eauto|]. apply IH. now apply alike_app in H.
Qed.
Lemma splits_alike separate a b n s l y : alike_in s a b -> splits separate a n s l y -> splits separate b n s l y.
Proof.
  intros H S. induction S as [s|n s F|n x w t l y Hn Lf O Sp IH].
  - apply split_limit.
  - apply split_none. intros i Hi. apply (F i). eapply sep_at_alike; [apply alike_sym|]; eauto.
  - assert (Ht : alike_in t a b) by (apply (alike_app (x ++ w)); now rewrite <- app_assoc). apply split_cut; auto.
    + intros i Hi Hs. apply (Lf i Hi). eapply sep_at_alike; [apply alike_sym|]; eauto.
    + apply alike_app in H. destruct separate; cbn in *; [eapply longest_alike|eapply run_alike]; eauto.
Qed.
Lemma re_split_alike separate a b n s : nonempty a -> nonempty b -> alike_in s a b ->
  re_split (separators_re a separate) n s = re_split (separators_re b separate) n s.
Proof.
  intros Na Nb S. pose proof (splits_alike _ _ _ _ _ _ _ S (split_spec separate a n s Na)) as H1.
  pose proof (split_spec separate b n s Nb) as H2. destruct (splits_fun _ _ _ _ _ _ H1 _ _ _ eq_refl H2) as [E1 E2].
  rewrite (surjective_pairing (re_split (separators_re a separate) n s)), E1, E2. symmetry. apply surjective_pairing.
Qed.
Lemma strip_left_alike a b s : nonempty a -> nonempty b -> alike_in s a b -> strip_left a s = strip_left b s.
Proof.
  intros Na Nb H. unfold strip_left. pose proof (match_spec false a s Na) as A. pose proof (match_spec false b s Nb) as B.
  destruct (re_match (separators_re a false) s) as [[g t]|], (re_match (separators_re b false) s) as [[g' t']|]; auto.
  - destruct A as (w & E & R & _), B as (w' & E' & R' & _). cbn in R, R'. subst s. apply (run_alike a b) in R; auto. symmetry in E'. now destruct (run_fun _ _ _ R' _ _ R E') as (_ & ->).
  - destruct A as (w & E & R & _). exfalso. apply B. apply (sep_at_alike s a b); auto. rewrite E. eapply one_split_sep. exact R.
  - destruct B as (w & E & R & _). exfalso. apply A. apply (sep_at_alike s b a); [now apply alike_sym|]. rewrite E. eapply one_split_sep. exact R.
Qed.
Lemma concat_occurs w ws (p q : str) : In w ws -> occurs w (p ++ concat ws ++ q).
Proof. intros I. apply occurs_sub. apply in_split in I as (l & m & ->). rewrite concat_app. cbn. exists (concat l), (concat m). reflexivity. Qed.
Lemma rel_strip_alike a b s s' g : nonempty a -> nonempty b -> alike_in s a b -> rel (strip_re a) s [] s' g -> rel (strip_re b) s [] s' g.
Proof.
  intros Na Nb H R. apply rel_strip in R; auto. destruct R as (w & ws & I & F & E & Ea & Eg). apply rel_strip; auto. exists w, ws.
  split; [apply (H w); auto; rewrite E; exists [], (concat ws ++ s'); reflexivity|]. split; auto.
  rewrite Forall_forall in *. intros v V. apply (H v); auto. rewrite E. now apply concat_occurs.
Qed.
Lemma strip_right_alike a b s : nonempty a -> nonempty b -> alike_in s a b -> strip_right a s = strip_right b s.
Proof.
  intros Na Nb H. unfold strip_right. pose proof (search_gen (strip_re a) s) as A. pose proof (search_gen (strip_re b) s) as B.
  assert (AB : forall i s' g, rel (strip_re a) (skipn i s) [] s' g -> rel (strip_re b) (skipn i s) [] s' g) by (intros; eapply rel_strip_alike; [..|eassumption]; auto; now apply alike_skipn).
  assert (BA : forall i s' g, rel (strip_re b) (skipn i s) [] s' g -> rel (strip_re a) (skipn i s) [] s' g) by (intros; eapply rel_strip_alike; [..|eassumption]; auto; apply alike_skipn, alike_sym, H).
  destruct (re_search (strip_re a) s) as [[[x m] r]|], (re_search (strip_re b) s) as [[[x' m'] r']|]; auto.
  - destruct A as (E & (g & R) & L), B as (E' & (g' & R') & L').
    assert (EQ : length x = length x').
    { assert (skipn (length x) s = m ++ r) as S1 by (rewrite E, skipn_app, skipn_all, Nat.sub_diag; reflexivity). assert (skipn (length x') s = m' ++ r') as S2 by (rewrite E', skipn_app, skipn_all, Nat.sub_diag; reflexivity).
      rewrite <- S1 in R. rewrite <- S2 in R'. destruct (Nat.lt_trichotomy (length x) (length x')) as [C|[C|C]]; auto; exfalso; [eapply L'|eapply L]; eauto. }
    rewrite E in E'. now apply app_len_inj in E' as (E' & _).
  - destruct A as (E & (g & R) & L). exfalso. apply (B (length x) r g). apply AB. now rewrite E, skipn_app, skipn_all, Nat.sub_diag.
  - destruct B as (E & (g & R) & L). exfalso. apply (A (length x') r' g). apply BA. now rewrite E, skipn_app, skipn_all, Nat.sub_diag.
Qed.
Lemma strip_right_prefix a s : nonempty a -> exists y, s = strip_right a s ++ y.
Proof. intros N. destruct (strip_right_spec a s N) as (b & c & E & _). eauto. Qed.
Lemma multistrip_alike a b s left right : a <> [] -> b <> [] -> nonempty a -> nonempty b -> alike_in s a b -> multistrip s a left right = multistrip s b left right.
Proof.
  intros A B Na Nb H. rewrite !multistrip_eq by auto. cbn zeta. destruct left; [|destruct right; auto; f_equal; now apply strip_right_alike].
  rewrite <- (strip_left_alike a b s) by auto. destruct right; auto. f_equal. apply strip_right_alike; auto.
  destruct (strip_left_spec a s Na) as (x & E & _). rewrite E in H. now apply alike_app in H.
Qed.
Lemma occurs_rev w s : occurs w (rev s) -> occurs (rev w) s.
Proof. intros (x & y & E). exists (rev y), (rev x). rewrite <- (rev_involutive s), E, !rev_app_distr. now rewrite <- app_assoc. Qed.
Lemma reverse_alike s a b : alike_in s a b -> alike_in (rev s) (reverse_separators a) (reverse_separators b).
Proof.
  intros H w O. rewrite (reverse_separators_same a w), (reverse_separators_same b w), !in_map_rev. apply H. now apply occurs_rev.
Qed.
Lemma reverse_nonempty a : nonempty a -> nonempty (reverse_separators a).
Proof. intros N. apply (nonempty_same (map (@rev chr) a)); [apply same_sym, reverse_separators_same|now apply nonempty_rev]. Qed.
Lemma gen_alike s a b keep m reverse separate strip rk : nonempty a -> nonempty b -> alike_in s a b ->
  multisplit_gen s a keep m reverse separate strip rk = multisplit_gen s b keep m reverse separate strip rk.
Proof.
  intros Na Nb H. unfold multisplit_gen. destruct ((match m with None => -1 | Some m => m end) =? 0)%Z; auto. destruct reverse.
  - now rewrite (re_split_alike separate (reverse_separators a) (reverse_separators b)) by (auto using reverse_nonempty, reverse_alike).
  - now rewrite (re_split_alike separate a b) by auto.
Qed.
Lemma multistrip_sub a s left right r : nonempty a -> multistrip s a left right = Ok r -> exists x y, s = x ++ r ++ y.
Proof.
  intros Na. destruct (is_nil a) eqn:A; [destruct a; [discriminate|discriminate]|]. assert (a <> []) by (destruct a; discriminate).
  rewrite multistrip_eq by auto. cbn zeta. intros E. injection E as <-.
  destruct left, right.
  - destruct (strip_left_spec a s Na) as (x & E & _). destruct (strip_right_prefix a (strip_left a s) Na) as (y & E2). exists x, y. congruence.
  - destruct (strip_left_spec a s Na) as (x & E & _). exists x, []. now rewrite app_nil_r.
  - destruct (strip_right_prefix a s Na) as (y & E2). exists [], y. exact E2.
  - exists [], []. now rewrite app_nil_r.
Qed.
Lemma multisplit_alike s a b keep m reverse separate strip : a <> [] -> b <> [] -> nonempty a -> nonempty b -> alike_in s a b ->
  multisplit s (Some a) keep m reverse separate strip = multisplit s (Some b) keep m reverse separate strip.
Proof.
  intros A B Na Nb H. unfold multisplit. assert (is_nil a = false) as -> by now destruct a. assert (is_nil b = false) as -> by now destruct b.
  assert (G : forall sm gl gr rk,
    match multistrip s a gl gr with Err e => Err e | Ok s => Ok (multisplit_gen s a keep (if is_nil s then Some 0%Z else m) reverse separate sm rk) end =
    match multistrip s b gl gr with Err e => Err e | Ok s => Ok (multisplit_gen s b keep (if is_nil s then Some 0%Z else m) reverse separate sm rk) end).
  { intros sm gl gr rk. rewrite <- (multistrip_alike a b s gl gr) by auto. destruct (multistrip s a gl gr) as [r|e] eqn:E; auto. f_equal. apply gen_alike; auto.
    apply multistrip_sub in E as (x & y & E); auto. rewrite E in H. now apply alike_sub in H. }
  destruct strip; [f_equal; now apply gen_alike|apply G|apply G|apply G|]. destruct (match m with Some m => (m =? -1)%Z | None => false end); apply G.
Qed.
