(** C143: the laws of multistrip. *)
From Verif Require Import PyBase PyStr SplitModel SplitSpec SplitProps.

(** Both sides: the left first, then the right. *)
Theorem C143_left_then_right : forall s seps, multistrip s seps true true = rbind (multistrip s seps true false) (fun t => multistrip t seps false true).
Proof. intros s seps. unfold multistrip. destruct (is_nil seps); auto. destruct (existsb is_nil seps); auto. Qed.
Print Assumptions C143_left_then_right.
Theorem C143_neither : forall s seps, valid (Some seps) -> multistrip s seps false false = Ok s.
Proof.
  intros s seps V. destruct (C36_multistrip_partial s seps false false V (or_introl eq_refl)) as (a & r & b & E & -> & _ & _ & A & B & _). rewrite E, (A eq_refl), (B eq_refl). cbn. now rewrite app_nil_r.
Qed.
Print Assumptions C143_neither.

Lemma of_seps_front seps a x : of_seps seps a -> a <> [] -> starts_with_sep seps (a ++ x).
Proof. intros (l & F & ->) N. destruct l as [|w l]; [cbn in N; now elim N|]. inversion F; subst. exists w, (concat l ++ x). split; auto. cbn. now rewrite <- app_assoc. Qed.
Lemma of_seps_back seps b x : of_seps seps b -> b <> [] -> ends_with_sep seps (x ++ b).
Proof.
  intros (l & F & ->) N. destruct l as [|w l] using rev_ind; [cbn in N; now elim N|]. clear IHl. apply Forall_app in F. destruct F as [_ F]. inversion F; subst.
  exists w, (x ++ concat l). split; auto. rewrite concat_app. cbn. now rewrite app_nil_r, <- app_assoc.
Qed.
Lemma no_final (s : str) : ~ In newline s -> forall t, s <> t ++ [newline].
Proof. intros H t ->. apply H, in_app_iff. right. left. auto. Qed.

(** Stripping again changes nothing, if newline is a separator or does not occur in s. *)
Theorem C143_idempotent : forall s seps left right r, valid (Some seps) -> right = false \/ In [newline] seps \/ ~ In newline s ->
  multistrip s seps left right = Ok r -> multistrip r seps left right = Ok r.
Proof.
  intros s seps left right r V G E.
  assert (G1 : right = false \/ In [newline] seps \/ forall t, s <> t ++ [newline]) by (destruct G as [G|[G|G]]; auto; right; right; now apply no_final).
  destruct (C36_multistrip_partial s seps left right V G1) as (a & r0 & b & E0 & Es & _ & _ & _ & _ & SL & SR). rewrite E0 in E. injection E as ->.
  assert (G2 : right = false \/ In [newline] seps \/ forall t, r <> t ++ [newline]).
  { destruct G as [G|[G|G]]; auto. right; right. apply no_final. intros I. apply G. rewrite Es, !in_app_iff. auto. }
  destruct (C36_multistrip_partial r seps left right V G2) as (a' & r' & b' & E' & Er & Oa & Ob & NL & NR & _ & _). rewrite E'. f_equal.
  assert (a' = []) as ->.
  { destruct left; [|auto]. destruct a' as [|c a']; auto. exfalso. apply (SL eq_refl). rewrite Er. apply of_seps_front; [auto|discriminate]. }
  assert (b' = []) as ->.
  { destruct right; [|auto]. destruct b' as [|c b']; auto. exfalso. apply (SR eq_refl). rewrite Er, app_assoc. apply of_seps_back; [auto|discriminate]. }
  rewrite Er. cbn. now rewrite app_nil_r.
Qed.
Print Assumptions C143_idempotent.
(** It does change something for "a", space, newline, space: first the last space goes, then the one before it with the newline. *)
Theorem C143_idempotent_refuted :
  multistrip (u "a " ++ [newline] ++ u " ") [u " "] true true = Ok (u "a " ++ [newline]) /\ multistrip (u "a " ++ [newline]) [u " "] true true = Ok (u "a").
Proof. split; vm_compute; reflexivity. Qed.
Print Assumptions C143_idempotent_refuted.

(** * separators of one character *)
Section Single.
  Context (S : list chr).
  Notation seps := (map (fun c : chr => [c]) S).
  Notation inS := (Forall (fun c => In c S)).
  Lemma of_single a : of_seps seps a <-> inS a.
  Proof.
    split.
    - intros (l & F & ->). induction F as [|w l I F IH]; cbn; auto. apply in_map_iff in I. destruct I as (c & <- & I). cbn. constructor; auto.
    - intros F. exists (map (fun c => [c]) a). split; [|clear F; induction a as [|c a IH]; cbn; auto; now rewrite <- IH]. apply Forall_forall. intros w I. apply in_map_iff in I. destruct I as (c & <- & I). rewrite Forall_forall in F. apply in_map_iff. eauto.
  Qed.
  Definition is_sep (c : chr) : bool := existsb (N.eqb c) S.
  Lemma is_sep_in c : is_sep c = true <-> In c S.
  Proof. unfold is_sep. rewrite existsb_exists. split; [intros (x & I & E); apply N.eqb_eq in E; now subst|intros I; exists c; split; auto; apply N.eqb_refl]. Qed.
  Fixpoint dropl (s : str) : str := match s with [] => [] | c :: t => if is_sep c then dropl t else s end.
  Lemma dropl_app a x : inS a -> dropl (a ++ x) = dropl x.
  Proof. induction 1 as [|c a I F IH]; cbn; auto. now rewrite (proj2 (is_sep_in c) I). Qed.
  Lemma dropl_id x : ~ starts_with_sep seps x -> dropl x = x.
  Proof. intros N. destruct x as [|c x]; auto. cbn. destruct (is_sep c) eqn:E; auto. exfalso. apply N. exists [c], x. split; auto. apply in_map_iff. exists c. split; auto. now apply is_sep_in. Qed.
  Lemma dropl_all a : inS a -> dropl a = [].
  Proof. intros F. rewrite <- (app_nil_r a), dropl_app by auto. reflexivity. Qed.
  Lemma rev_starts x : starts_with_sep seps (rev x) -> ends_with_sep seps x.
  Proof. intros (w & t & I & E). apply in_map_iff in I. destruct I as (c & <- & I). exists [c], (rev t). split; [apply in_map_iff; eauto|]. apply (f_equal (@rev chr)) in E. rewrite rev_involutive in E. cbn in E. exact E. Qed.
  Lemma stripped_is a r b : inS a -> inS b -> ~ starts_with_sep seps r -> ~ ends_with_sep seps r -> rev (dropl (rev (dropl (a ++ r ++ b)))) = r.
  Proof.
    intros A B NS NE. rewrite dropl_app by auto. destruct r as [|c r]; [cbn; now rewrite (dropl_all b) by auto|].
    rewrite (dropl_id ((c :: r) ++ b)).
    - rewrite rev_app_distr, dropl_app by (apply Forall_rev; auto). rewrite dropl_id; [apply rev_involutive|]. intros X. apply NE, rev_starts, X.
    - intros (w & t & I & E). apply in_map_iff in I. destruct I as (d & <- & I). cbn in E. injection E as -> E. apply NS. exists [d], r. split; auto. apply in_map_iff. eauto.
  Qed.
End Single.
Lemma valid_single (S : list chr) : S <> [] -> valid (Some (map (fun c : chr => [c]) S)).
Proof. intros N. split; [destruct S; [congruence|discriminate]|]. apply Forall_forall. intros w I. apply in_map_iff in I. destruct I as (c & <- & _). discriminate. Qed.
Lemma newline_single S : In [newline] (map (fun c : chr => [c]) S) <-> In newline S.
Proof. rewrite in_map_iff. split; [intros (c & [= ->] & I); auto|intros I; exists newline; auto]. Qed.
Lemma guard S (s : str) : In newline S \/ ~ In newline s -> forall right, right = false \/ In [newline] (map (fun c : chr => [c]) S) \/ (forall t, s <> t ++ [newline]).
Proof. intros [G|G] rt; [right; left; now apply newline_single|right; right; now apply no_final]. Qed.

(** For separators of one character it does not matter which side is stripped first. *)
Theorem C143_order : forall s (S : list chr), S <> [] -> In newline S \/ ~ In newline s ->
  multistrip s (map (fun c => [c]) S) true true = rbind (multistrip s (map (fun c => [c]) S) false true) (fun t => multistrip t (map (fun c => [c]) S) true false).
Proof.
  intros s S N G. pose proof (valid_single S N) as V.
  destruct (C36_multistrip_partial s _ true true V (guard S s G true)) as (a & r & b & E & Es & Oa & Ob & _ & _ & NS & NE).
  destruct (C36_multistrip_partial s _ false true V (guard S s G true)) as (a1 & r1 & b1 & E1 & Es1 & _ & Ob1 & A1 & _ & _ & NE1).
  destruct (C36_multistrip_partial r1 _ true false V (or_introl eq_refl)) as (a2 & r2 & b2 & E2 & Er1 & Oa2 & _ & _ & B2 & NS2 & _).
  rewrite E, E1. cbn [rbind]. rewrite E2. f_equal. rewrite (A1 eq_refl) in Es1. rewrite (B2 eq_refl), app_nil_r in Er1. cbn in Es1.
  apply of_single in Oa, Ob, Ob1, Oa2.
  rewrite <- (stripped_is S a r b Oa Ob (NS eq_refl) (NE eq_refl)), <- Es, Es1, Er1, <- app_assoc. apply stripped_is; auto.
  intros (w & t & I & X). destruct r2 as [|c r2].
  - apply in_map_iff in I. destruct I as (d & <- & _). destruct t; discriminate.
  - apply (NE1 eq_refl). exists w, (a2 ++ t). split; auto. rewrite Er1, X. now rewrite app_assoc.
Qed.
Print Assumptions C143_order.
(** It can matter if separators overlap. *)
Theorem C143_order_refuted :
  multistrip (u "aab") [u "aa"; u "ab"] true true = Ok (u "b") /\
  rbind (multistrip (u "aab") [u "aa"; u "ab"] false true) (fun t => multistrip t [u "aa"; u "ab"] true false) = Ok (u "a").
Proof. split; vm_compute; reflexivity. Qed.
Print Assumptions C143_order_refuted.
(** Stripping some characters first makes no difference if they are stripped, too, with others. *)
Theorem C143_more : forall s (S T : list chr), S <> [] -> (forall c, In c S -> In c T) -> In newline S \/ ~ In newline s ->
  rbind (multistrip s (map (fun c => [c]) S) true true) (fun t => multistrip t (map (fun c => [c]) T) true true) = multistrip s (map (fun c => [c]) T) true true.
Proof.
  intros s S T N Sub G. assert (NT : T <> []) by (destruct S as [|c S]; [congruence|]; intros ->; exact (Sub c (or_introl eq_refl))).
  destruct (C36_multistrip_partial s _ true true (valid_single S N) (guard S s G true)) as (a & r & b & E & Es & Oa & Ob & _ & _ & _ & _).
  assert (Gs : In newline T \/ ~ In newline s) by (destruct G; auto).
  assert (Gr : In newline T \/ ~ In newline r) by (destruct Gs as [G1|G1]; auto; right; intros I; apply G1; rewrite Es, !in_app_iff; auto).
  destruct (C36_multistrip_partial r _ true true (valid_single T NT) (guard T r Gr true)) as (a1 & r1 & b1 & E1 & Er & Oa1 & Ob1 & _ & _ & NS1 & NE1).
  destruct (C36_multistrip_partial s _ true true (valid_single T NT) (guard T s Gs true)) as (a2 & r2 & b2 & E2 & Es2 & Oa2 & Ob2 & _ & _ & NS2 & NE2).
  rewrite E. cbn [rbind]. rewrite E1, E2. f_equal. apply of_single in Oa, Ob, Oa1, Ob1, Oa2, Ob2.
  assert (W : forall x : str, Forall (fun c => In c S) x -> Forall (fun c => In c T) x) by (intros x F; eapply Forall_impl; [|exact F]; auto).
  rewrite <- (stripped_is T a2 r2 b2 Oa2 Ob2 (NS2 eq_refl) (NE2 eq_refl)), <- Es2.
  replace s with ((a ++ a1) ++ r1 ++ (b1 ++ b)) by (rewrite Es, Er, <- !app_assoc; reflexivity). symmetry. apply stripped_is; auto; apply Forall_app; auto.
Qed.
Print Assumptions C143_more.
Example C143_witness :
  multistrip (u " -ab- ") [u " "] true true = Ok (u "-ab-") /\ multistrip (u "-ab-") [u " "; u "-"] true true = Ok (u "ab") /\ multistrip (u " -ab- ") [u " "; u "-"] true true = Ok (u "ab") /\
  multistrip (u " -ab- ") [u " "; u "-"] false true = Ok (u " -ab") /\ multistrip (u " -ab") [u " "; u "-"] true false = Ok (u "ab").
Proof. repeat split; vm_compute; reflexivity. Qed.
