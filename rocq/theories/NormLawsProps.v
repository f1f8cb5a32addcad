(** C146: the laws of normalize_whitespace. *)
From Verif Require Import PyBase PyStr SplitModel SplitSpec SplitProof SplitProof2 SplitProof3 SplitProps.
Local Open Scope nat_scope.

(** [class o p]: the separators [o] are white space (None), or any separators that amount to the class of characters p *)
Definition class (o : option (list str)) (p : chr -> bool) : Prop :=
  match o with None => p = is_space | Some seps => class_like p seps /\ seps <> [] end.
(** the replacement consists of such characters; has none of them *)
Definition all_p (p : chr -> bool) (r : str) : Prop := Forall (fun c => p c = true) r.
Definition no_p (p : chr -> bool) (r : str) : Prop := Forall (fun c => p c = false) r.

Lemma class_is o p : class o p -> forall s r, normalize_whitespace s o r = Ok (replace_runs p (default_space r) false s).
Proof. destruct o as [seps|]; cbn; [intros [C N] s r; now apply C38_normalize_general|intros -> s r; apply C38_normalize]. Qed.

Section Runs.
  Context (p : chr -> bool).
  Notation R := (replace_runs p).
  (** in a run after s *)
  Fixpoint state (b : bool) (s : str) : bool := match s with [] => b | c :: t => state (p c) t end.
  Lemma R_app r b s t : R r b (s ++ t) = R r b s ++ R r (state b s) t.
  Proof. revert b. induction s as [|c s IH]; intros b; [reflexivity|]. cbn. destruct (p c); rewrite IH; [now rewrite app_assoc|reflexivity]. Qed.
  Lemma R_start r t : (forall c t', t = c :: t' -> p c = false) -> R r true t = R r false t.
  Proof. destruct t as [|c t]; auto. intros H. cbn. now rewrite (H c t eq_refl). Qed.
  Lemma state_snoc b s : state b s = match rev s with [] => b | c :: _ => p c end.
  Proof.
    induction s as [|c s IH] using rev_ind; [reflexivity|]. clear IH. rewrite rev_app_distr. cbn [rev app]. revert b. induction s as [|d s IH]; intros b; [reflexivity|]. cbn. apply IH.
  Qed.
  Lemma R_no r b s : no_p p s -> R r b s = s.
  Proof. intros H. revert b. induction H as [|c s E H IH]; intros b; [reflexivity|]. cbn. now rewrite E, IH. Qed.
  Lemma R_all_true r s : all_p p s -> R r true s = [].
  Proof. induction 1 as [|c s E H IH]; [reflexivity|]. cbn. now rewrite E, IH. Qed.
  Lemma R_all r s : all_p p s -> s <> [] -> R r false s = r.
  Proof. intros H N. destruct H as [|c s E H]; [congruence|]. cbn. rewrite E, (R_all_true r s H). apply app_nil_r. Qed.
  Lemma state_all b s : all_p p s -> s <> [] -> state b s = true.
  Proof. intros H N. destruct H as [|c s E H]; [congruence|]. cbn. rewrite E. clear N E. induction H as [|d s E H IH]; auto. cbn. now rewrite E. Qed.
  Lemma R_twice r r2 : all_p p r -> r <> [] -> forall s b, R r2 b (R r b s) = R r2 b s.
  Proof.
    intros A N. induction s as [|c s IH]; intros b; [reflexivity|]. cbn [replace_runs]. destruct (p c) eqn:E.
    - destruct b; [apply IH|]. rewrite R_app, (R_all r2 r A N), (state_all _ r A N). f_equal. apply IH.
    - cbn [replace_runs]. rewrite E. f_equal. apply IH.
  Qed.
  Lemma R_clean r : no_p p r -> forall s b, no_p p (R r b s).
  Proof.
    intros H. induction s as [|c s IH]; intros b; [constructor|]. cbn. destruct (p c) eqn:E; [apply Forall_app; split; [destruct b; [constructor|exact H]|apply IH]|constructor; [exact E|apply IH]].
  Qed.
  (** how many characters not in the class *)
  Fixpoint others (s : str) : nat := match s with [] => 0 | c :: t => if p c then others t else S (others t) end.
  Lemma others_app s t : others (s ++ t) = others s + others t.
  Proof. induction s as [|c s IH]; cbn; auto. destruct (p c); rewrite IH; auto. Qed.
  Lemma others_R r : forall s b, others s <= others (R r b s).
  Proof. induction s as [|c s IH]; intros b; cbn; auto. destruct (p c) eqn:E; [rewrite others_app; specialize (IH true); lia|cbn; rewrite E; specialize (IH false); lia]. Qed.
  Lemma others_R_more r c0 : In c0 r -> p c0 = false -> forall s b, (b = true -> exists c t, s = c :: t /\ p c = false) -> (exists c, In c s /\ p c = true) -> others s < others (R r b s).
  Proof.
    intros I0 P0. assert (O : 0 < others r) by (clear - I0 P0; induction r as [|c r IH]; [destruct I0|]; cbn; destruct I0 as [-> |I0]; [rewrite P0; lia|destruct (p c); [apply IH, I0|lia]]).
    induction s as [|c s IH]; intros b B (d & J & E); [destruct J|]. cbn [replace_runs others]. destruct (p c) eqn:EC.
    - destruct b; [destruct (B eq_refl) as (c' & t & [= <- <-] & F); congruence|]. rewrite others_app. pose proof (others_R r s true). lia.
    - cbn [others]. rewrite EC. enough (others s < others (R r false s)) by lia. apply IH; [discriminate|]. destruct J as [<-|J]; [congruence|eauto].
  Qed.
End Runs.

(** normalize_whitespace(s + t) is normalize_whitespace(s) + normalize_whitespace(t), unless white space at the end of s meets white space at the start of t. *)
Theorem C146_concat : forall o p s t r, class o p -> (forall c s', s = s' ++ [c] -> p c = false) \/ (forall c t', t = c :: t' -> p c = false) ->
  normalize_whitespace (s ++ t) o r = rbind (normalize_whitespace s o r) (fun a => rmap (fun b => a ++ b) (normalize_whitespace t o r)).
Proof.
  intros o p s t r C H. rewrite !(class_is o p C). cbn. f_equal. rewrite R_app. f_equal. destruct H as [H|H].
  - assert (E : state p false s = false); [|now rewrite E]. rewrite state_snoc. destruct (rev s) as [|c l] eqn:E; auto. apply (H c (rev l)). rewrite <- (rev_involutive s), E. reflexivity.
  - destruct (state p false s); auto. apply R_start. exact H.
Qed.
Print Assumptions C146_concat.
(** With a replacement that is white space a second call with any other replacement gives what that call alone gives. *)
Theorem C146_twice : forall o p s r r2, class o p -> all_p p (default_space r) -> default_space r <> [] ->
  rbind (normalize_whitespace s o r) (fun t => normalize_whitespace t o r2) = normalize_whitespace s o r2.
Proof. intros o p s r r2 C A N. rewrite !(class_is o p C). cbn [rbind]. rewrite (class_is o p C). f_equal. now apply R_twice. Qed.
Print Assumptions C146_twice.
(** Exactly when a second call changes nothing: the replacement is white space only, or has none, or there was nothing to replace. *)
Theorem C146_idempotent : forall o p s r, class o p ->
  (rbind (normalize_whitespace s o r) (fun t => normalize_whitespace t o r) = normalize_whitespace s o r <->
   all_p p (default_space r) \/ no_p p (default_space r) \/ no_p p s).
Proof.
  intros o p s r C. rewrite (class_is o p C). cbn [rbind]. rewrite (class_is o p C). set (q := default_space r). split.
  - intros [= E]. destruct (forallb (fun c => negb (p c)) s) eqn:F1.
    { right; right. apply Forall_forall. intros c J. rewrite forallb_forall in F1. specialize (F1 c J). now destruct (p c). }
    destruct (forallb p q) eqn:F2.
    { left. apply Forall_forall. intros c J. rewrite forallb_forall in F2. auto. }
    destruct (forallb (fun c => negb (p c)) q) eqn:F3.
    { right; left. apply Forall_forall. intros c J. rewrite forallb_forall in F3. specialize (F3 c J). now destruct (p c). }
    exfalso. assert (X : forall (f : chr -> bool) l, forallb f l = false -> exists c, In c l /\ f c = false).
    { intros f l. induction l as [|c l IH]; cbn; [discriminate|]. destruct (f c) eqn:FC; cbn; [intros H; destruct (IH H) as (d & J & G); eauto|eauto]. }
    destruct (X _ _ F1) as (c1 & J1 & E1). destruct (X _ _ F2) as (c2 & J2 & E2). destruct (X _ _ F3) as (c3 & J3 & E3). apply negb_false_iff in E1, E3.
    assert (I : In c3 (replace_runs p q false s)).
    { clear - J1 E1 J3. assert (G : forall s, In c1 s -> In c3 (replace_runs p q false s)).
      { intros s0. induction s0 as [|c s0 IH]; intros J; [destruct J|]. cbn. destruct (p c) eqn:EC; [apply in_or_app; left; exact J3|]. right. apply IH. destruct J as [-> |J]; [congruence|exact J]. }
      apply G, J1. }
    pose proof (others_R_more p q c2 J2 E2 (replace_runs p q false s) false ltac:(discriminate) (ex_intro _ c3 (conj I E3))) as L. rewrite E in L. lia.
  - intros [A|[A|A]]; f_equal.
    + destruct q as [|c q0] eqn:Q; [|apply R_twice; [exact A|discriminate]]. apply R_no, R_clean. constructor.
    + now apply R_no, R_clean.
    + rewrite (R_no p q false s A). now apply R_no.
Qed.
Print Assumptions C146_idempotent.

(** With the default separators: r.join(s.split()), with r in front if s starts with white space and behind if it ends with it (and r alone for a blank string). *)
Theorem C146_words : forall s r, normalize_whitespace s None r = Ok (
  let r := default_space r in
  if forallb is_space s then match s with [] => [] | _ => r end
  else (if starts_with_space s then r else []) ++ join r (split_ws s) ++ (if starts_with_space (rev s) then r else [])).
Proof.
  intros s r. rewrite C38_normalize. cbv zeta. f_equal. set (q := default_space r). destruct (forallb is_space s) eqn:B.
  - destruct s as [|c s]; [reflexivity|]. apply R_all; [|discriminate]. apply Forall_forall. intros d J. rewrite forallb_forall in B. auto.
  - assert (JA : forall x l, l <> [] -> join q (x :: l) = x ++ q ++ join q l) by (intros x l N; destruct l; [congruence|reflexivity]).
    assert (JE : forall l, l <> [] -> join q (l ++ [[]]) = join q l ++ q).
    { induction l as [|x l IH]; intros N; [congruence|]. destruct l as [|y l]; [cbn; now rewrite app_nil_r|]. change ((x :: y :: l) ++ [[]]) with (x :: (y :: l) ++ [[]]).
      rewrite JA by discriminate. rewrite IH by discriminate. etransitivity; [|apply (f_equal (fun z : str => z ++ q)); symmetry; apply JA; discriminate]. now rewrite <- !app_assoc. }
    pose proof (split_ws_nonempty s B) as N.
    pose proof (proj2 (fast_squeeze q s B)) as FS. rewrite squeeze_runs in FS. etransitivity; [exact FS|]. unfold trail, ends_with_space.
    assert (T : join q (split_ws s ++ (if starts_with_space (rev s) then [[]] else [])) = join q (split_ws s) ++ (if starts_with_space (rev s) then q else [])).
    { destruct (starts_with_space (rev s)); [apply JE, N|now rewrite !app_nil_r]. }
    rewrite <- T. destruct (starts_with_space s); [|reflexivity]. cbn [app]. rewrite JA; [reflexivity|]. destruct (split_ws s); [congruence|discriminate].
Qed.
Print Assumptions C146_words.

Example C146_witness :
  class None is_space /\ class (Some [u "-"; u "+"]) (fun c => (c =? 45)%N || (c =? 43)%N) /\
  rbind (normalize_whitespace (u "a  b") None (Some (u "- "))) (fun t => normalize_whitespace t None (Some (u "- "))) = Ok (u "a-- b") /\
  normalize_whitespace (u "a  b") None (Some (u "- ")) = Ok (u "a- b") /\
  normalize_whitespace (u "a " ++ u " b") None None = Ok (u "a b") /\ normalize_whitespace (u "a ") None None = Ok (u "a ") /\ normalize_whitespace (u " b") None None = Ok (u " b").
Proof.
  split; [reflexivity|]. split; [|repeat split; vm_compute; reflexivity]. split; [|discriminate]. split.
  - intros w [<-|[<-|[]]]; split; (discriminate || reflexivity).
  - intros c H. apply orb_true_iff in H. destruct H as [H|H]; apply N.eqb_eq in H; subst; cbn; auto.
Qed.
