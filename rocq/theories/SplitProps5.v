(** Exact behaviour where the properties of SplitProps.v need hypotheses. *)
From Verif Require Import PyBase PyStr Regex RegexProof SplitModel SplitSpec SplitSpec4 SplitProof SplitProof2 SplitProof3 SplitProps SplitProps2.

Lemma strip_left_cut seps s : nonempty seps -> cut_left seps s (strip_left seps s).
Proof.
  intros NE. unfold strip_left, cut_left. pose proof (match_spec false seps s NE) as M. destruct (re_match _ s) as [[g t]|].
  - destruct M as (w & -> & R & _). left. exists w. auto.
  - right. split; auto.
Qed.
Lemma at_eol_cases s : at_eol s = true <-> s = [] \/ s = [newline].
Proof.
  destruct s as [|c [|d s]]; cbn; split; auto; try discriminate.
  - intros H. apply N.eqb_eq in H. subst. auto.
  - intros [H|H]; [discriminate|]. injection H as ->. reflexivity.
  - intros [H|H]; discriminate.
Qed.
Lemma tail_rel seps t : nonempty seps -> (tail seps t <-> exists s' g', rel (strip_re seps) t [] s' g').
Proof.
  intros NE. split.
  - intros (w & ws & I & F & [->| ->]).
    + exists [], []. apply rel_strip; auto. exists w, ws. rewrite app_nil_r. auto.
    + exists [newline], []. apply rel_strip; auto. exists w, ws. auto.
  - intros (s' & g' & R). apply rel_strip in R; auto. destruct R as (w & ws & I & F & -> & E & _). exists w, ws. split; auto. split; auto.
    apply at_eol_cases in E. destruct E as [-> | ->]; [left|right]; auto. now rewrite app_nil_r.
Qed.
Lemma strip_right_cut seps s : nonempty seps -> cut_right seps s (strip_right seps s).
Proof.
  intros NE. unfold strip_right, cut_right. pose proof (search_gen (strip_re seps) s) as S. destruct (re_search _ s) as [[[x m] a]|].
  - destruct S as (-> & (g & R) & L). left. exists (m ++ a). split; auto. split; [apply tail_rel; eauto|].
    intros r' t' E T. apply tail_rel in T; auto. destruct T as (s' & g' & R').
    destruct (Nat.le_gt_cases (length x) (length r')) as [H|H]; auto. exfalso. apply (L (length r') s' g' H).
    rewrite E, skipn_app, skipn_all, Nat.sub_diag. exact R'.
  - right. split; auto. intros r' t' E T. apply tail_rel in T; auto. destruct T as (s' & g' & R').
    apply (S (length r') s' g'). rewrite E, skipn_app, skipn_all, Nat.sub_diag. exact R'.
Qed.

(** C36, exactly and for all strings: multistrip cuts off the maximal run of separators at
    the left, then the longest end that is made of separators, and possibly one newline
    after them, at the right. *)
Theorem C36_multistrip_exact : forall s seps left right, valid (Some seps) ->
  exists s1 r, multistrip s seps left right = Ok r /\
    (if left then cut_left seps s s1 else s1 = s) /\ (if right then cut_right seps s1 r else r = s1).
Proof.
  intros s seps left right [V1 V2]. cbn in V1, V2. rewrite (multistrip_eq s seps left right V1 V2). cbn zeta.
  exists (if left then strip_left seps s else s). eexists. split; [reflexivity|]. split.
  - destruct left; auto. now apply strip_left_cut.
  - destruct right; auto. now apply strip_right_cut.
Qed.
Print Assumptions C36_multistrip_exact.
(** The two cuts have only one possible result. *)
Lemma app_len_eq {A} (a b c d : list A) : a ++ b = c ++ d -> length a = length c -> a = c.
Proof. revert c. induction a as [|x a IH]; intros [|y c] E L; try discriminate; auto. injection E as -> E. f_equal. eauto. Qed.
Lemma longest_unique seps w t w' t' : longest seps w t -> longest seps w' t' -> w ++ t = w' ++ t' -> w = w' /\ t = t'.
Proof.
  intros [I L] [I' L'] E. assert (H : length w = length w') by (pose proof (L _ _ I' E); pose proof (L' _ _ I (eq_sym E)); lia).
  pose proof (app_len_eq _ _ _ _ E H) as ->. split; auto. now apply app_inv_head in E.
Qed.
Lemma run_starts seps a r : run seps a r -> starts_with_sep seps (a ++ r).
Proof. intros R. inversion R as [? ? [I _] _|w w' ? [I _] _]; subst; [exists a, r; auto|exists w, (w' ++ r); rewrite app_assoc; auto]. Qed.
Lemma run_unique seps w t : run seps w t -> forall w' t', run seps w' t' -> w ++ t = w' ++ t' -> t = t'.
Proof.
  induction 1 as [w t L N|w v t L R IH]; intros w' t' R' E; inversion R' as [? ? L' N'|w1 v1 ? L' R1]; subst.
  - now destruct (longest_unique _ _ _ _ _ L L' E).
  - rewrite <- app_assoc in E. destruct (longest_unique _ _ _ _ _ L L' E) as [_ E']. exfalso. apply N. rewrite E'. exact (run_starts _ _ _ R1).
  - rewrite <- app_assoc in E. destruct (longest_unique _ _ _ _ _ L L' E) as [_ E']. exfalso. apply N'. rewrite <- E'. exact (run_starts _ _ _ R).
  - rewrite <- !app_assoc in E. destruct (longest_unique _ _ _ _ _ L L' E) as [_ E']. eauto.
Qed.
Theorem C36_cuts_unique : forall seps s r r',
  (cut_left seps s r -> cut_left seps s r' -> r = r') /\ (cut_right seps s r -> cut_right seps s r' -> r = r').
Proof.
  intros seps s r r'. split.
  - intros [(a & -> & R)|[N ->]] [(a' & E & R')|[N' ->]]; auto.
    + eapply run_unique; eauto.
    + exfalso. apply N'. now apply run_starts.
    + exfalso. apply N. rewrite E. now apply run_starts.
  - intros [(t & -> & T & L)|[N ->]] [(t' & E & T' & L')|[N' ->]]; auto.
    + apply (app_len_eq _ _ _ _ E). pose proof (L _ _ E T'). pose proof (L' _ _ eq_refl T). lia.
    + exfalso. eapply N'; eauto.
    + exfalso. eapply N; eauto.
Qed.
Print Assumptions C36_cuts_unique.
Example C36_exact_witness : multistrip (u " abc " ++ [newline]) [u " "] true true = Ok (u "abc") /\
  cut_left [u " "] (u " abc " ++ [newline]) (u "abc " ++ [newline]) /\ cut_right [u " "] (u "abc " ++ [newline]) (u "abc").
Proof.
  assert (NE : nonempty [u " "]) by (repeat constructor; discriminate). split; [vm_compute; reflexivity|]. split.
  - exact (strip_left_cut [u " "] (u " abc " ++ [newline]) NE).
  - exact (strip_right_cut [u " "] (u "abc " ++ [newline]) NE).
Qed.

(** C66, the remaining strings: of a string of whitespace (or an empty one) multisplit makes
    one empty string, whatever maxsplit and reverse - and str.split none. *)
Theorem C66_blank : forall s maxsplit (reverse : bool) strip, forallb is_space s = true -> strip = StripTrue \/ strip = Progressive ->
  multisplit s None KeepFalse maxsplit reverse false strip = Ok [Str []].
Proof.
  intros s maxsplit reverse strip B H.
  assert (C : forall l r, l = true \/ r = true -> multistrip s str_whitespace l r = Ok []).
  { intros l r LR. destruct (C36_multistrip_partial s str_whitespace l r valid_none) as (a & x & b & E & Es & _ & _ & _ & _ & Na & Nb).
    { right; left. vm_compute. auto. }
    rewrite E. f_equal. rewrite Es, !forallb_app, !andb_true_iff in B. destruct B as (_ & B & _).
    pose proof (whitespace_class str_whitespace (or_intror eq_refl)) as C. destruct x as [|c x]; auto. exfalso. destruct LR as [-> | ->].
    - apply Na; auto. cbn in B. rewrite andb_true_iff in B. exists [c], x. split; auto. apply C, B.
    - apply Nb; auto. destruct (exists_last (l := c :: x)) as (t & d & Q); [discriminate|]. rewrite Q in *. rewrite forallb_app in B. cbn in B. rewrite !andb_true_iff in B.
      exists [d], t. split; auto. apply C, B. }
  unfold multisplit. destruct H as [-> | ->]; cbn [is_nil str_whitespace].
  - fold str_whitespace. rewrite C by auto. reflexivity.
  - fold str_whitespace. destruct (match maxsplit with Some m => (m =? -1)%Z | None => false end).
    + rewrite C by auto. reflexivity.
    + rewrite C by (destruct reverse; auto). reflexivity.
Qed.
Print Assumptions C66_blank.
Example C66_blank_witness : forallb is_space (u "  ") = true. Proof. reflexivity. Qed.

Lemma evens_flat (l : list (str * str)) y : evens (flat_map (fun q => [fst q; snd q]) l ++ [y]) = map fst l ++ [y].
Proof. induction l as [|[a b] l IH]; cbn; auto. f_equal. exact IH. Qed.
(** C65 for the other values of maxsplit: with None, and below -1, PROGRESSIVE strips only the
    near end: it is LEFT, or RIGHT with reverse. *)
Theorem C65_maxsplit_None : forall s o keep maxsplit (reverse separate : bool), maxsplit = None \/ (exists m, maxsplit = Some m /\ (m < -1)%Z) ->
  multisplit s o keep maxsplit reverse separate Progressive = multisplit s o keep maxsplit reverse separate (if reverse then StripRight else StripLeft).
Proof.
  intros s o keep maxsplit reverse separate H.
  assert (A : (match maxsplit with Some m => (m =? -1)%Z | None => false end) = false).
  { destruct H as [->|(m & -> & L)]; auto. apply Z.eqb_neq. lia. }
  assert (G : forall s seps, multisplit_gen s seps keep maxsplit reverse separate Progressive true =
     multisplit_gen s seps keep maxsplit reverse separate (if reverse then StripRight else StripLeft) (match keep with KeepFalse => false | _ => true end)).
  { intros x seps. unfold multisplit_gen.
    assert (D : (0 <= -1 \/ (match maxsplit with None => (-1)%Z | Some m => m end) < 0)%Z) by (destruct H as [->|(m & -> & L)]; cbv beta iota; lia).
    assert (E : ((match maxsplit with None => (-1)%Z | Some m => m end) =? 0)%Z = false) by (apply Z.eqb_neq; destruct H as [->|(m & -> & L)]; cbv beta iota; lia).
    rewrite E. cbn zeta. set (m := match maxsplit with None => (-1)%Z | Some m => m end) in *.
    assert (F : forall k, (Z.of_nat (k + 2) <? 1 + 2 * m)%Z = false) by (intros k; apply Z.ltb_ge; lia).
    rewrite F. unfold with_seps, without_seps. destruct reverse, keep; rewrite ?evens_flat; reflexivity. }
  assert (G0 : forall s seps, multisplit_gen s seps keep (Some 0%Z) reverse separate Progressive true =
     multisplit_gen s seps keep (Some 0%Z) reverse separate (if reverse then StripRight else StripLeft) (match keep with KeepFalse => false | _ => true end)) by (intros; reflexivity).
  unfold multisplit. set (seps := match o with None => str_whitespace | Some l => l end). destruct (is_nil seps); auto.
  rewrite A. destruct reverse; cbn [negb]; cbv beta iota in G, G0 |- *;
  destruct (multistrip s seps _ _) as [x|e]; auto; cbn zeta; destruct (is_nil x); rewrite ?G, ?G0; reflexivity.
Qed.
Print Assumptions C65_maxsplit_None.
(** C65_maxsplit_None: both forms of the hypothesis, with different results for the two sides *)
Example C65_maxsplit_None_witness :
  multisplit (u " a b ") None KeepFalse None false true Progressive = Ok (map Str [u "a"; u "b"; []]) /\
  multisplit (u " a b ") None KeepFalse (Some (-2)%Z) true true Progressive = Ok (map Str [u " a b"]).
Proof. vm_compute. repeat split. Qed.
