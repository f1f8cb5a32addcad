(** Lemmas about dicts, sets and counting. *)
From Verif Require Import PyBase PyDict.
From Coq Require Import Lia.

Section D.
  Context {A : Type}.
  Implicit Types d : dict A.
  Lemma dget_dset d k v k' : dget (dset d k v) k' = if (k' =? k)%nat then Some v else dget d k'.
  Proof.
    induction d as [|[a b] t IH]; cbn.
    - destruct (k' =? k) eqn:E; auto.
    - destruct (k =? a) eqn:E; cbn.
      + apply Nat.eqb_eq in E. subst a. destruct (k' =? k); auto.
      + rewrite IH. destruct (k' =? a) eqn:F; auto. apply Nat.eqb_eq in F. subst a.
        rewrite Nat.eqb_sym, E. auto.
  Qed.
  Lemma dget_in d k v : dget d k = Some v -> In (k, v) d.
  Proof.
    induction d as [|[a b] t IH]; cbn; [discriminate|].
    destruct (k =? a) eqn:E; [apply Nat.eqb_eq in E; intros [= ->]; subst; auto|auto].
  Qed.
  Lemma dget_none d k : dget d k = None <-> ~ In k (dkeys d).
  Proof.
    induction d as [|[a b] t IH]; cbn; [tauto|].
    destruct (k =? a) eqn:E.
    - apply Nat.eqb_eq in E. split; [discriminate|]. subst; tauto.
    - apply Nat.eqb_neq in E. rewrite IH. intuition congruence.
  Qed.
  Lemma dget_some d k : In k (dkeys d) <-> exists v, dget d k = Some v.
  Proof.
    destruct (dget d k) eqn:E.
    - split; eauto. intros _. apply dget_in in E. apply in_map_iff. exists (k, a). auto.
    - apply dget_none in E. split; [tauto|]. intros [v [=]].
  Qed.
  Lemma dmem_true d k : dmem k d = true <-> In k (dkeys d).
  Proof. unfold dmem. rewrite dget_some. destruct (dget d k); split; eauto; try discriminate. intros [v [=]]. Qed.
  Lemma dmem_false d k : dmem k d = false <-> ~ In k (dkeys d).
  Proof. rewrite <- dmem_true. destruct (dmem k d); intuition congruence. Qed.
  Lemma dkeys_dset_in d k v : In k (dkeys d) -> dkeys (dset d k v) = dkeys d.
  Proof.
    induction d as [|[a b] t IH]; cbn; [tauto|]. intros H.
    destruct (k =? a) eqn:E; cbn.
    - apply Nat.eqb_eq in E. subst; auto.
    - apply Nat.eqb_neq in E. f_equal. apply IH. destruct H; [congruence|auto].
  Qed.
  Lemma dkeys_dset_new d k v : ~ In k (dkeys d) -> dkeys (dset d k v) = dkeys d ++ [k].
  Proof.
    induction d as [|[a b] t IH]; cbn; [auto|]. intros H.
    destruct (k =? a) eqn:E; cbn.
    - apply Nat.eqb_eq in E. subst; tauto.
    - f_equal. apply IH. tauto.
  Qed.
  Lemma in_dkeys_dset d k v x : In x (dkeys (dset d k v)) <-> x = k \/ In x (dkeys d).
  Proof.
    rewrite <- !dmem_true. unfold dmem. rewrite dget_dset.
    destruct (x =? k) eqn:E.
    - apply Nat.eqb_eq in E. split; auto.
    - apply Nat.eqb_neq in E. split; [auto|]. intros [?|?]; [congruence|auto].
  Qed.
  Lemma nodup_app_one (l : list nat) x : NoDup l -> ~ In x l -> NoDup (l ++ [x]).
  Proof.
    intros H1 H2. apply (Permutation_NoDup (l := x :: l)).
    - apply Permutation_cons_append.
    - constructor; auto.
  Qed.
  Lemma nodup_dset d k v : NoDup (dkeys d) -> NoDup (dkeys (dset d k v)).
  Proof.
    intros H. destruct (in_dec Nat.eq_dec k (dkeys d)) as [I|I].
    - rewrite dkeys_dset_in; auto.
    - rewrite dkeys_dset_new; auto using nodup_app_one.
  Qed.
  Lemma dkeys_ddel d k : dkeys (ddel d k) = lremove k (dkeys d).
  Proof. induction d as [|[a b] t IH]; cbn; auto. destruct (k =? a); cbn; [auto|now f_equal]. Qed.
  Lemma dget_ddel d k k' : NoDup (dkeys d) ->
    dget (ddel d k) k' = if (k' =? k)%nat then None else dget d k'.
  Proof.
    induction d as [|[a b] t IH]; cbn; intros H; inversion H; subst.
    - destruct (k' =? k); auto.
    - destruct (k =? a) eqn:E; cbn.
      + apply Nat.eqb_eq in E. subst a. destruct (k' =? k) eqn:F; auto.
        apply Nat.eqb_eq in F. subst k'. apply dget_none. auto.
      + rewrite IH by auto. destruct (k' =? a) eqn:F; auto.
        apply Nat.eqb_eq in F. subst a. rewrite Nat.eqb_sym, E. auto.
  Qed.
End D.

Lemma smem_true x s : smem x s = true <-> In x s.
Proof.
  unfold smem. rewrite existsb_exists. split.
  - intros [y [H E]]. apply Nat.eqb_eq in E. subst; auto.
  - intros H. exists x. rewrite Nat.eqb_refl. auto.
Qed.
Lemma smem_false x s : smem x s = false <-> ~ In x s.
Proof. rewrite <- smem_true. destruct (smem x s); intuition congruence. Qed.
Lemma smem_in x s : reflect (In x s) (smem x s).
Proof. apply iff_reflect. symmetry. apply smem_true. Qed.
Lemma in_sadd x y s : In y (sadd x s) <-> y = x \/ In y s.
Proof.
  unfold sadd. destruct (smem_in x s); [|rewrite in_app_iff; cbn]; intuition (subst; auto).
Qed.
Lemma nodup_sadd x s : NoDup s -> NoDup (sadd x s).
Proof. unfold sadd. destruct (smem_in x s); auto using nodup_app_one. Qed.
Lemma in_sunion l : forall s y, In y (sunion s l) <-> In y s \/ In y l.
Proof.
  unfold sunion. induction l as [|x t IH]; cbn; intros s y; [tauto|].
  rewrite IH, in_sadd. intuition.
Qed.
Lemma nodup_sunion l : forall s, NoDup s -> NoDup (sunion s l).
Proof. unfold sunion. induction l as [|x t IH]; cbn; auto using nodup_sadd. Qed.
Lemma in_sdiscard x y s : In y (sdiscard x s) <-> In y s /\ y <> x.
Proof.
  unfold sdiscard. rewrite filter_In. destruct (x =? y) eqn:E; cbn.
  - apply Nat.eqb_eq in E. intuition congruence.
  - apply Nat.eqb_neq in E. intuition congruence.
Qed.
Lemma nodup_sdiscard x s : NoDup s -> NoDup (sdiscard x s).
Proof. apply NoDup_filter. Qed.
Lemma in_sdiff s l y : In y (sdiff s l) <-> In y s /\ ~ In y l.
Proof. unfold sdiff. rewrite filter_In, negb_true_iff, smem_false. tauto. Qed.
Lemma nodup_sdiff s l : NoDup s -> NoDup (sdiff s l).
Proof. apply NoDup_filter. Qed.
Lemma in_lremove x y l : NoDup l -> In y (lremove x l) <-> In y l /\ y <> x.
Proof.
  induction l as [|a t IH]; cbn; intros H; inversion H; subst; [tauto|].
  destruct (x =? a) eqn:E.
  - apply Nat.eqb_eq in E. subst a. split; [|intuition congruence].
    intros I. split; auto. intros ->. auto.
  - apply Nat.eqb_neq in E. cbn. rewrite IH by auto. intuition congruence.
Qed.
Lemma in_lremove_other x y l : y <> x -> In y (lremove x l) <-> In y l.
Proof.
  induction l as [|a t IH]; cbn; intros H; [tauto|].
  destruct (x =? a) eqn:E; cbn.
  - apply Nat.eqb_eq in E. intuition congruence.
  - rewrite IH; tauto.
Qed.
Lemma lremove_incl x l : incl (lremove x l) l.
Proof.
  induction l as [|a t IH]; intros y; cbn; [tauto|]. destruct (x =? a); cbn; auto. intros [H|H]; auto.
Qed.
Lemma nodup_lremove x l : NoDup l -> NoDup (lremove x l).
Proof.
  induction l as [|a t IH]; cbn; intros H; [auto|]. inversion H; subst.
  destruct (x =? a); auto. constructor; auto. intros I. apply lremove_incl in I. auto.
Qed.
Lemma lremove_notin x l : ~ In x l -> lremove x l = l.
Proof.
  induction l as [|a t IH]; cbn; intros H; auto. destruct (x =? a) eqn:E.
  - apply Nat.eqb_eq in E. subst; tauto.
  - f_equal. apply IH. tauto.
Qed.

(** counting the elements of a list that satisfy a test *)
Definition cnt (K : list nat) (f : nat -> bool) : nat := length (filter f K).
Lemma cnt_ext K f g : (forall x, In x K -> f x = g x) -> cnt K f = cnt K g.
Proof. unfold cnt. intros H. f_equal. apply filter_ext_in. auto. Qed.
Lemma cnt_cons x K f : cnt (x :: K) f = (if f x then 1 else 0) + cnt K f.
Proof. unfold cnt. cbn. destruct (f x); auto. Qed.
Lemma cnt_app K1 K2 f : cnt (K1 ++ K2) f = cnt K1 f + cnt K2 f.
Proof. unfold cnt. now rewrite filter_app, app_length. Qed.
Lemma cnt_zero K f : cnt K f = 0 <-> forall x, In x K -> f x = false.
Proof.
  induction K as [|a t IH].
  - cbn. tauto.
  - rewrite cnt_cons. cbn. split.
    + intros H x [->|I].
      * destruct (f x); [discriminate|auto].
      * apply IH; auto. destruct (f a); [discriminate|auto].
    + intros H. rewrite (H a); cbn; auto. apply IH; auto.
Qed.
Lemma cnt_flip K f g d : NoDup K -> In d K -> f d = false -> g d = true ->
  (forall x, In x K -> x <> d -> g x = f x) -> cnt K g = S (cnt K f).
Proof.
  induction K as [|a t IH]; intros H I F G O; [destruct I|].
  inversion H; subst. rewrite !cnt_cons. destruct (Nat.eq_dec a d) as [->|Ne].
  - rewrite F, G. cbn. f_equal. apply cnt_ext. intros x Hx. apply O; cbn; auto. congruence.
  - destruct I as [I|I]; [congruence|]. rewrite IH; auto.
    + rewrite (O a); cbn; auto; lia.
    + intros x Hx N. apply O; cbn; auto.
Qed.
Lemma cnt_lremove K f x : NoDup K -> cnt (lremove x K) f = cnt K (fun y => f y && negb (x =? y)).
Proof.
  induction K as [|a t IH]; cbn [lremove]; intros H; auto. inversion H; subst.
  rewrite cnt_cons. destruct (x =? a) eqn:E.
  - rewrite andb_false_r. cbn. apply cnt_ext. intros y Hy.
    apply Nat.eqb_eq in E. subst a. destruct (x =? y) eqn:F.
    + apply Nat.eqb_eq in F. subst; tauto.
    + now rewrite andb_true_r.
  - rewrite cnt_cons, andb_true_r, IH; auto.
Qed.
Lemma cnt_le K f : cnt K f <= length K.
Proof. unfold cnt. induction K; cbn; auto. destruct (f a); cbn; lia. Qed.
