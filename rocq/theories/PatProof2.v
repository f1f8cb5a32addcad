(** The patterns of big/version.py, read by [compile], are the trees of VersionModel. *)
From Verif Require Import PyBase PatModel PatProof.
Require Import ZifyBool ZifyNat ZifyN.

Section Names.
  (** [num j]: the number in the pattern of group j of the model *)
  Context (num : nat -> option nat).
  Definition G_names (g g' : groups) : Prop := forall j i, num j = Some i -> group g i = group g' j.
  Context (inj : forall j j' i, num j = Some i -> num j' = Some i -> j = j').
  Lemma G_grp i j : num j = Some i -> forall g g' w, G_names g g' -> G_names ((i, w) :: g) ((j, w) :: g').
  Proof.
    intros E g g' w H j' i' E'. cbn. destruct (Nat.eqb_spec i i') as [<-|N].
    - assert (j = j') by (eapply inj; eauto). subst. now rewrite Nat.eqb_refl.
    - destruct (Nat.eqb_spec j j') as [<-|]; [congruence|]. apply H; auto.
  Qed.
  Lemma G_erase i : (forall j, num j <> Some i) -> forall g g' w, G_names g g' -> G_names ((i, w) :: g) g'.
  Proof. intros E g g' w H j' i' E'. cbn. destruct (Nat.eqb_spec i i') as [<-|N]; [exfalso; eapply E; eauto|]. apply H; auto. Qed.
End Names.
Lemma sem_seq_eps' G a a' : sem G a a' -> sem G a (Seq a' Eps).
Proof. intros A R R' Q s g g' k k' H K. cbn. apply A; auto. Qed.

Lemma sem_seq_eps2 G a a' : sem G a a' -> sem G (Seq a (Seq Eps Eps)) a'.
Proof. intros A R R' Q s g g' k k' H K. cbn. apply A; auto. Qed.

Definition num (j : nat) : option nat := nth_error [1; 2; 4; 6; 8; 9; 10; 12; 13; 14] j.
Lemma num_inj j j' i : num j = Some i -> num j' = Some i -> j = j'.
Proof.
  unfold num. intros H H'.
  do 11 (destruct j as [|j]; [do 11 (destruct j' as [|j']; [cbn in H, H'; congruence|]); cbn in H, H'; destruct j'; cbn in H'; congruence|]).
  cbn in H. destruct j; discriminate.
Qed.
Lemma num_in i : ~ In i [1; 2; 4; 6; 8; 9; 10; 12; 13; 14] -> forall j, num j <> Some i.
Proof. intros N j E. apply N. eapply nth_error_In; eauto. Qed.

Lemma ci_other c d : (c <? 97)%N = true -> ci c d = (d =? c)%N.
Proof. intros H. unfold ci, between. lia. Qed.
Lemma chars_in n : forall lo c, In c (chars_from n lo) <-> (lo <= c < lo + N.of_nat n)%N.
Proof.
  induction n as [|n IH]; intros lo c; cbn [chars_from In]; [lia|]. rewrite IH. lia.
Qed.
Lemma range_spec lo hi d : (lo <= hi)%N -> sitem_matches ci d (SRange lo hi) = true <-> exists c, (lo <= c <= hi)%N /\ ci c d = true.
Proof.
  intros H. cbn [sitem_matches]. rewrite existsb_exists. split; intros (c & H1 & H2); exists c; split; auto; rewrite chars_in in *; lia.
Qed.
Lemma set_digits d : existsb (sitem_matches ci d) [SRange 48%N 57%N] = is_digit d.
Proof.
  cbn [existsb]. rewrite orb_false_r. apply eq_iff_eq_true. rewrite range_spec by lia. unfold is_digit, between. split.
  - intros (c & H & E). rewrite ci_other in E by lia. lia.
  - intros H. exists d. split; [lia|]. rewrite ci_other by lia. lia.
Qed.
Lemma set_sep d : existsb (sitem_matches ci d) [SChr 45%N; SChr 95%N; SChr 46%N] = is_sep d.
Proof. cbn [existsb sitem_matches]. rewrite !ci_other by reflexivity. unfold is_sep. lia. Qed.
Lemma set_alnum d : existsb (sitem_matches ci d) [SRange 97%N 122%N; SRange 48%N 57%N] = is_alnum d.
Proof.
  change (existsb (sitem_matches ci d) [SRange 97%N 122%N; SRange 48%N 57%N]) with (sitem_matches ci d (SRange 97%N 122%N) || existsb (sitem_matches ci d) [SRange 48%N 57%N]).
  rewrite set_digits. apply eq_iff_eq_true. rewrite orb_true_iff, range_spec by lia. unfold is_alnum. split.
  - intros [(c & H & E)|E]; [|rewrite E; auto]. unfold ci, between in E. unfold between. lia.
  - intros H. destruct (is_digit d) eqn:D; [right; auto|left]. cbn [orb] in H.
    destruct (between 97 122 d) eqn:B; [exists d; unfold ci, between in *; lia|].
    destruct (between 65 90 d) eqn:B2; [exists (d + 32)%N; unfold ci, between in *; lia|]. cbn [orb] in H.
    destruct (N.eqb_spec d 304); [exists 105%N; subst; auto with arith; split; [lia|reflexivity]|].
    destruct (N.eqb_spec d 305); [exists 105%N; subst; split; [lia|reflexivity]|].
    destruct (N.eqb_spec d 383); [exists 115%N; subst; split; [lia|reflexivity]|].
    destruct (N.eqb_spec d 8490); [exists 107%N; subst; split; [lia|reflexivity]|]. discriminate.
Qed.

Ltac sem_step :=
  match goal with
  | |- sem _ (Seq _ Eps) _ => apply sem_seq_eps
  | |- sem _ (Seq _ (Seq Eps Eps)) _ => apply sem_seq_eps2
  | |- sem _ (Seq (Seq _ _) _) _ => apply sem_assoc
  | |- sem _ _ (Seq (Seq _ _) _) => apply sem_assoc'
  | |- sem _ (Seq Eps _) _ => apply sem_eps_seq
  | |- sem _ (Seq _ Eps) _ => apply sem_seq_eps
  | |- sem _ _ (Seq _ Eps) => apply sem_seq_eps'
  | |- sem _ (Seq _ _) (Seq _ _) => apply sem_seq
  | |- sem _ (Plus _) (Plus _) => apply sem_plus
  | |- sem _ (Opt _) (Opt _) => apply sem_opt
  | |- sem _ (Star _) (Star _) => apply sem_star
  | |- sem _ (Alt _ _) (Alt _ _) => apply sem_alt
  | |- sem _ (Grp _ _) (Grp _ _) => apply sem_grp; [apply G_grp; [exact num_inj | reflexivity]|]
  | |- sem _ (Grp _ _) _ => apply sem_grp_erase; [apply G_erase, num_in; cbn; intuition lia|]
  | |- sem _ Eol Eol => apply sem_eol
  | |- sem _ Eps Eps => apply sem_eps
  | |- sem _ (Chr _) (Chr _) => apply sem_chr; intros ?; first [apply set_digits | apply set_sep | apply set_alnum | reflexivity | rewrite ci_other by reflexivity; reflexivity]
  end.
Definition names : list (str * nat) :=
  [(u "local", 14); (u "dev_n", 13); (u "dev_l", 12); (u "dev", 11); (u "post_n2", 10); (u "post_l", 9); (u "post_n1", 8); (u "post", 7); (u "pre_n", 6); (u "pre_l", 4);
   (u "pre", 3); (u "release", 2); (u "epoch", 1)].
Section Abstract.
  Context (same : chr -> chr -> bool) (space : chr -> bool).
  Definition version_tree : option (re * list (str * nat)) := Eval cbv -[existsb sitem_matches Plus Opt] in compile same space true VERSION_PATTERN.
  Definition segment_tree : option (re * list (str * nat)) := Eval cbv -[existsb sitem_matches Plus Opt] in compile same space false SEGMENT_PATTERN.
  Lemma version_compiles : compile same space true VERSION_PATTERN = version_tree.
  Proof. vm_compute. reflexivity. Qed.
  Lemma segment_compiles : compile same space false SEGMENT_PATTERN = segment_tree.
  Proof. vm_compute. reflexivity. Qed.
End Abstract.
Lemma version_sem : exists r, compile ci is_space true VERSION_PATTERN = Some (r, names) /\ sem (G_names num) r version_re.
Proof.
  rewrite version_compiles. eexists. split; [unfold version_tree; f_equal; f_equal|].
  unfold version_re, R_epoch, R_release, R_pre, R_post, R_dev, R_local, Digits, Sep, ch, lit. cbn [alts pre_labels map fold_left Lit fold_right u].
  repeat sem_step.
  all: unfold lit, Lit; cbn [fold_right]; repeat sem_step.
Qed.
Lemma segment_sem : exists r, compile N.eqb is_space false SEGMENT_PATTERN = Some (r, []) /\ alike r (Seq (Plus (Chr is_ascii_alnum)) Eol).
Proof.
  rewrite segment_compiles. eexists. split; [reflexivity|].
  apply sem_eps_seq. apply sem_seq; [|apply sem_seq_eps, sem_eol]. apply sem_plus, sem_chr. intros d.
  assert (R : forall lo hi, (lo <= hi)%N -> sitem_matches N.eqb d (SRange lo hi) = between lo hi d).
  { intros lo hi H. apply eq_iff_eq_true. cbn [sitem_matches]. rewrite existsb_exists. unfold between. split.
    - intros (c & H1 & H2). rewrite chars_in in H1. lia.
    - intros E. exists d. rewrite chars_in. lia. }
  cbn [existsb]. rewrite !R by lia. unfold is_ascii_alnum, is_digit. destruct (between 48 57 d), (between 97 122 d), (between 65 90 d); reflexivity.
Qed.
