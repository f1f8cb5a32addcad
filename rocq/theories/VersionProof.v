(** Lexicographic comparison is a strict total order. *)
From Verif Require Import VersionModel PyStrProof RegexProof.

Record cmp_ok {A} (f : A -> A -> comparison) : Prop := mkOk {
  ok_eq : forall x y, f x y = Eq <-> x = y;
  ok_opp : forall x y, f y x = CompOpp (f x y);
  ok_trans : forall x y z, f x y = Lt -> f y z = Lt -> f x z = Lt
}.
Lemma ok_Z : cmp_ok Z.compare.
Proof.
  constructor.
  - intros. apply Z.compare_eq_iff. - intros. apply Z.compare_antisym.
  - intros x y z. rewrite !Z.compare_lt_iff. lia.
Qed.
Lemma ok_N : cmp_ok N.compare.
Proof.
  constructor.
  - intros. apply N.compare_eq_iff. - intros. apply N.compare_antisym.
  - intros x y z. rewrite !N.compare_lt_iff. lia.
Qed.
Lemma cmp_then_opp a b : CompOpp (cmp_then a b) = cmp_then (CompOpp a) (CompOpp b).
Proof. destruct a; auto. Qed.
Lemma ok_pair {A B} (f : A -> A -> comparison) (g : B -> B -> comparison) : cmp_ok f -> cmp_ok g ->
  cmp_ok (fun (x y : A * B) => cmp_then (f (fst x) (fst y)) (g (snd x) (snd y))).
Proof.
  intros F G. constructor.
  - intros [a b] [c d]. cbn. split.
    + destruct (f a c) eqn:E; cbn; intros H; try discriminate. apply (ok_eq _ F) in E. apply (ok_eq _ G) in H. congruence.
    + intros H. injection H as <- <-. rewrite (proj2 (ok_eq _ F a a) eq_refl). cbn. now apply (ok_eq _ G).
  - intros [a b] [c d]. cbn. rewrite cmp_then_opp, <- (ok_opp _ F), <- (ok_opp _ G). reflexivity.
  - intros [a b] [c d] [e h]. cbn. destruct (f a c) eqn:E1, (f c e) eqn:E2; cbn; intros H1 H2; try discriminate.
    + apply (ok_eq _ F) in E1, E2. subst. rewrite (proj2 (ok_eq _ F e e) eq_refl). cbn. eapply (ok_trans _ G); eauto.
    + apply (ok_eq _ F) in E1. subst. now rewrite E2.
    + apply (ok_eq _ F) in E2. subst. now rewrite E1.
    + now rewrite (ok_trans _ F _ _ _ E1 E2).
Qed.
Lemma ok_list {A} (f : A -> A -> comparison) : cmp_ok f -> cmp_ok (cmp_list f).
Proof.
  intros F. constructor.
  - induction x as [|a x IH]; intros [|b y]; cbn; split; intros H; try discriminate; auto.
    + destruct (f a b) eqn:E; try discriminate. apply (ok_eq _ F) in E. apply IH in H. congruence.
    + injection H as <- <-. rewrite (proj2 (ok_eq _ F a a) eq_refl). now apply IH.
  - induction x as [|a x IH]; intros [|b y]; cbn; auto. rewrite cmp_then_opp, <- (ok_opp _ F), <- IH. reflexivity.
  - induction x as [|a x IH]; intros [|b y] [|c z]; cbn; try discriminate; auto.
    destruct (f a b) eqn:E1, (f b c) eqn:E2; cbn; intros H1 H2; try discriminate.
    + apply (ok_eq _ F) in E1, E2. subst. rewrite (proj2 (ok_eq _ F c c) eq_refl). cbn. eapply IH; eauto.
    + apply (ok_eq _ F) in E1. subst. now rewrite E2.
    + apply (ok_eq _ F) in E2. subst. now rewrite E1.
    + now rewrite (ok_trans _ F _ _ _ E1 E2).
Qed.
Lemma ok_dev : cmp_ok cmp_dev.
Proof.
  constructor.
  - intros [x|] [y|]; cbn; split; intros H; try discriminate; auto.
    + apply Z.compare_eq in H. congruence. + injection H as ->. apply Z.compare_refl.
  - intros [x|] [y|]; cbn; auto. apply Z.compare_antisym.
  - intros [x|] [y|] [z|]; cbn; try discriminate; auto. apply (ok_trans _ ok_Z).
Qed.
Lemma ok_local : cmp_ok cmp_local.
Proof.
  pose proof (ok_list _ ok_N) as L. constructor.
  - intros [x|x] [y|y]; cbn; split; intros H; try discriminate; auto.
    + apply (ok_eq _ L) in H. congruence. + injection H as ->. now apply (ok_eq _ L).
    + apply Z.compare_eq in H. congruence. + injection H as ->. apply Z.compare_refl.
  - intros [x|x] [y|y]; cbn; auto. apply (ok_opp _ L). apply Z.compare_antisym.
  - intros [x|x] [y|y] [z|z]; cbn; try discriminate; auto. apply (ok_trans _ L). apply (ok_trans _ ok_Z).
Qed.
Lemma ok_map {A B} (p : A -> B) (f : B -> B -> comparison) : (forall x y, p x = p y -> x = y) ->
  cmp_ok f -> cmp_ok (fun x y => f (p x) (p y)).
Proof.
  intros I F. constructor.
  - intros. rewrite (ok_eq _ F). split; [apply I|congruence].
  - intros. apply (ok_opp _ F). - intros x y z. apply (ok_trans _ F).
Qed.
Lemma ok_key : cmp_ok cmp_key.
Proof.
  pose proof (ok_pair _ _ ok_Z (ok_pair _ _ (ok_list _ ok_Z) (ok_pair _ _ ok_Z (ok_pair _ _ ok_Z (ok_pair _ _ ok_Z
    (ok_pair _ _ ok_dev (ok_list _ ok_local))))))) as H.
  apply (ok_map (fun k => (k_epoch k, (k_release k, (k_level k, (k_serial k, (k_post k, (k_dev k, k_local k)))))))) in H.
  - exact H.
  - intros [] []. cbn. congruence.
Qed.

Lemma v_eq_key a b : v_eq a b = true <-> key a = key b.
Proof.
  unfold v_eq. rewrite <- (ok_eq _ ok_key). destruct (cmp_key (key a) (key b)); split; congruence.
Qed.
Lemma v_lt_cmp a b : v_lt a b = true <-> cmp_key (key a) (key b) = Lt.
Proof. unfold v_lt. destruct (cmp_key (key a) (key b)); split; congruence. Qed.
