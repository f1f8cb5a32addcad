(** C104, C105: types of arguments and results. *)
From Verif Require Import SplitProof3 SplitProps SplitProps2 TypedSpec.

Lemma kind_eqb_iff a b : kind_eqb a b = true <-> a = b.
Proof. destruct a, b; cbn; split; auto; discriminate. Qed.
Lemma kind_eqb_refl a : kind_eqb a a = true. Proof. now destruct a. Qed.
Lemma kind_eqb_false a b : kind_eqb a b = false <-> a <> b.
Proof. destruct a, b; cbn; split; intros; try discriminate; congruence. Qed.
Definition fine (k : kind) (g : obj) : Prop := exists c v, g = OText k c v /\ v <> [].

(** the loops over the separators *)
Lemma check_each_ok k l seps : check_each k l = Ok seps <-> Forall2 (fun o v => exists c, o = OText k c v) l seps /\ ~ In [] seps.
Proof.
  revert seps. induction l as [|o l IH]; intros seps; cbn [check_each].
  - split; [intros [= <-]; split; auto|intros [H _]; now inversion H].
  - destruct o as [k' c v| |l'|l'|b]; try (split; [discriminate|intros [H _]; inversion H as [|? ? ? ? (c0 & E)]; discriminate]).
    destruct (kind_eqb k k') eqn:K.
    + apply kind_eqb_iff in K. subst k'. destruct v as [|x v]; cbn [is_nil].
      * split; [discriminate|]. intros [H N]. inversion H as [|? y ? t (c0 & E)]; subst. injection E as <- <-. destruct N. now left.
      * destruct (check_each k l) as [t|e] eqn:C; cbn [rmap].
        -- split.
           ++ intros [= <-]. destruct (proj1 (IH t) eq_refl) as [F N]. split; [constructor; eauto|]. intros [E|E]; [discriminate|auto].
           ++ intros [H N]. inversion H as [|? y ? t' (c0 & E) F]; subst. injection E as <- <-. f_equal. f_equal.
              assert (Ok t = Ok t') as [= <-]; auto. apply IH. split; auto. intros I. apply N. now right.
        -- split; [discriminate|]. intros [H N]. inversion H as [|? y ? t' (c0 & E) F]; subst.
           assert (@Err (list str) e = Ok t') by (apply IH; split; auto; intros I; apply N; now right). discriminate.
    + apply kind_eqb_false in K. split; [discriminate|]. intros [H _]. inversion H as [|? y ? t' (c0 & E) F]; subst. injection E as -> <- <-. congruence.
Qed.
Lemma check_each_err k l e : check_each k l = Err e <->
  (exists good x rest, l = good ++ x :: rest /\ Forall (fine k) good /\ foreign k x /\ e = TypeError) \/
  (exists good c rest, l = good ++ OText k c [] :: rest /\ Forall (fine k) good /\ e = ValueError).
Proof.
  split.
  - revert e. induction l as [|o l IH]; intros e; cbn [check_each]; [discriminate|].
    assert (T : foreign k o -> e = TypeError -> (exists good x rest, o :: l = good ++ x :: rest /\ Forall (fine k) good /\ foreign k x /\ e = TypeError)).
    { intros Fo ->. exists [], o, l. auto. }
    destruct o as [k' c v| |l'|l'|b]; try (intros [= <-]; left; apply T; auto; intros ? ?; discriminate).
    destruct (kind_eqb k k') eqn:K.
    + apply kind_eqb_iff in K. subst k'. destruct v as [|x v]; cbn [is_nil].
      * intros [= <-]. right. exists [], c, l. auto.
      * destruct (check_each k l) as [t|e'] eqn:C; cbn [rmap]; [discriminate|]. intros [= <-]. clear T. assert (Fi : fine k (OText k c (x :: v))) by (exists c, (x :: v); split; auto; discriminate).
        destruct (IH e' eq_refl) as [(g & y & r & -> & G & Fo & ->)|(g & c' & r & -> & G & ->)].
        -- left. exists (OText k c (x :: v) :: g), y, r. auto.
        -- right. exists (OText k c (x :: v) :: g), c', r. auto.
    + apply kind_eqb_false in K. intros [= <-]. left. apply T; auto. intros c0 v0 [= -> _ _]. congruence.
  - intros [(g & x & r & -> & G & Fo & ->)|(g & c & r & -> & G & ->)].
    + induction G as [|y g (c & v & -> & N) G IH]; cbn [app check_each].
      * destruct x as [k' c v| |l'|l'|b]; auto. destruct (kind_eqb k k') eqn:K; auto. apply kind_eqb_iff in K. subst. now destruct (Fo c v).
      * rewrite kind_eqb_refl, IH. destruct v; [congruence|reflexivity].
    + induction G as [|y g (c' & v & -> & N) G IH]; cbn [app check_each].
      * now rewrite kind_eqb_refl.
      * rewrite kind_eqb_refl, IH. destruct v; [congruence|reflexivity].
Qed.
Lemma check_types_ok k l seps : check_types k l = Ok seps <-> Forall2 (fun o v => exists c, o = OText k c v) l seps.
Proof.
  revert seps. induction l as [|o l IH]; intros seps; cbn [check_types].
  - split; [intros [= <-]; auto|intros H; now inversion H].
  - destruct o as [k' c v| |l'|l'|b]; try (split; [discriminate|intros H; inversion H as [|? ? ? ? (c0 & E)]; discriminate]).
    destruct (kind_eqb k k') eqn:K.
    + apply kind_eqb_iff in K. subst k'. destruct (check_types k l) as [t|e] eqn:C; cbn [rmap].
      * split.
        -- intros [= <-]. constructor; eauto. now apply IH.
        -- intros H. inversion H as [|? y ? t' (c0 & E) F]; subst. injection E as <- <-. f_equal. f_equal. assert (Ok t = Ok t') as [= <-]; auto. now apply IH.
      * split; [discriminate|]. intros H. inversion H as [|? y ? t' (c0 & E) F]; subst. apply IH in F. discriminate.
    + apply kind_eqb_false in K. split; [discriminate|]. intros H. inversion H as [|? y ? t' (c0 & E) F]; subst. injection E as -> <- <-. congruence.
Qed.
Lemma check_types_err k l e : check_types k l = Err e <-> e = TypeError /\ exists x, In x l /\ foreign k x.
Proof.
  split.
  - revert e. induction l as [|o l IH]; intros e; cbn [check_types]; [discriminate|].
    destruct o as [k' c v| |l'|l'|b]; try (intros [= <-]; split; auto; eexists; split; [now left|intros ? ?; discriminate]).
    destruct (kind_eqb k k') eqn:K.
    + destruct (check_types k l) as [t|e'] eqn:C; cbn [rmap]; [discriminate|]. intros [= <-]. destruct (IH e' eq_refl) as (-> & x & I & Fo). split; auto. exists x. split; auto. now right.
    + apply kind_eqb_false in K. intros [= <-]. split; auto. eexists. split; [now left|]. intros c0 v0 [= -> _ _]. congruence.
  - intros (-> & x & I & Fo). induction l as [|o l IH]; [destruct I|]. cbn [check_types]. destruct I as [->|I].
    + destruct x as [k' c v| |l'|l'|b]; auto. destruct (kind_eqb k k') eqn:K; auto. apply kind_eqb_iff in K. subst. now destruct (Fo c v).
    + rewrite (IH I). destruct o as [k' c v| |l'|l'|b]; auto. now destruct (kind_eqb k k').
Qed.

(** the error conditions of strip_separators *)
Lemma strip_separators_err k o e : strip_separators k o = Err e <-> wrong k o e.
Proof.
  split.
  - destruct o as [k' c v| |l|l|b]; cbn [strip_separators truth iterate].
    + destruct (kind_eqb k k') eqn:K.
      * apply kind_eqb_iff in K. subst k'. destruct v; [intros [= <-]|discriminate]. apply wrong_empty. eauto.
      * apply kind_eqb_false in K. intros [= <-]. constructor. congruence.
    + intros [= <-]. apply wrong_empty. auto.
    + destruct l as [|x l]; cbn [is_nil negb rbind]; [intros [= <-]; apply wrong_empty; auto|].
      intros H. apply check_each_err in H as [(g & y & r & -> & G & Fo & ->)|(g & c & r & -> & G & ->)]; [eapply wrong_type_in|eapply wrong_empty_in]; eauto.
    + intros H. apply check_each_err in H as [(g & y & r & -> & G & Fo & ->)|(g & c & r & -> & G & ->)]; [eapply wrong_type_in|eapply wrong_empty_in]; eauto.
    + destruct b; cbn; intros [= <-]; [constructor|apply wrong_empty; auto].
  - intros H. destruct H as [o H|k' c v N| |o g x r H G Fo|o g c r H G].
    + destruct H as [->|[->|[->|(c & ->)]]]; auto. cbn. now rewrite kind_eqb_refl.
    + cbn. replace (kind_eqb k k') with false; auto. symmetry. apply kind_eqb_false. congruence.
    + reflexivity.
    + assert (E : check_each k (g ++ x :: r) = Err TypeError) by (apply check_each_err; left; exists g, x, r; auto).
      destruct H as [->| ->]; cbn [strip_separators truth iterate]; [destruct g; exact E|exact E].
    + assert (E : check_each k (g ++ OText k c [] :: r) = Err ValueError) by (apply check_each_err; right; exists g, c, r; auto).
      destruct H as [->| ->]; cbn [strip_separators truth iterate]; [destruct g; exact E|exact E].
Qed.
Lemma chars_nonempty v : ~ In [] (map (fun x : chr => [x]) v).
Proof. intros I. apply in_map_iff in I as (x & E & _). discriminate. Qed.
Lemma strip_separators_ok k o seps : stands_for k o seps -> ~ In [] seps -> strip_separators k o = Ok seps /\ seps <> [].
Proof.
  intros H N. destruct H as [c v Nv|l seps Nl F|l seps Nl F]; cbn [strip_separators truth iterate].
  - rewrite kind_eqb_refl. destruct v; [congruence|]. split; auto. discriminate.
  - destruct l as [|x l]; [congruence|]. cbn [is_nil negb rbind]. split; [now apply check_each_ok|]. inversion F; subst; discriminate.
  - split; [now apply check_each_ok|]. inversion F; subst; [congruence|discriminate].
Qed.
Lemma multistrip_slice v seps left right : seps <> [] -> ~ In [] seps ->
  exists a r b, multistrip v seps left right = Ok r /\ v = a ++ r ++ b.
Proof.
  intros N N'. assert (NE : Forall (fun w : str => w <> []) seps) by (apply Forall_forall; intros w I ->; auto).
  rewrite multistrip_eq; auto. cbn zeta. set (s1 := if left then strip_left seps v else v).
  assert (L : exists a, v = a ++ s1) by (unfold s1; destruct left; [destruct (strip_left_spec seps v NE) as (a & E & _); eauto|now exists []]).
  destruct L as (a & L). destruct right.
  - destruct (strip_right_spec seps s1 NE) as (b & c & E & _). exists a, (strip_right seps s1), (b ++ c). split; auto. rewrite L. now rewrite E at 1.
  - exists a, s1, []. now rewrite app_nil_r.
Qed.

(** ** C104: multistrip *)
(** It raises an exception exactly if something is wrong with separators, and which one depends on the first thing that is. *)
Theorem C104_multistrip_errors k c v o left right e : multistrip_py k c v o left right = Err e <-> wrong k o e.
Proof.
  unfold multistrip_py. destruct (strip_separators k o) as [seps|e'] eqn:S; cbn [rbind].
  - split; [|intros W; apply strip_separators_err in W; congruence]. intros E. exfalso. unfold strip_with in E.
    destruct (negb (left || right)); [discriminate|]. destruct seps as [|w seps]; [discriminate|].
    assert (N : ~ In [] (w :: seps)).
    { destruct o as [k' c' v'| |l|l|b]; cbn [strip_separators truth iterate] in S; try discriminate.
      - destruct (kind_eqb k k'), v' as [|x v']; try discriminate. injection S as <- <-. exact (chars_nonempty (x :: v')).
      - destruct l; try discriminate. cbn [is_nil negb rbind] in S. now apply check_each_ok in S.
      - now apply check_each_ok in S.
      - destruct b; discriminate. }
    destruct (multistrip_slice v (w :: seps) left right ltac:(discriminate) N) as (a & r & b & M & _). rewrite M in E. discriminate.
  - rewrite <- strip_separators_err, S. split; intros [= <-]; reflexivity.
Qed.
(** Otherwise the result is what multistrip makes of the characters (C36), with the type of s: str or bytes, or s itself. *)
Theorem C104_multistrip k c v o seps left right : stands_for k o seps -> ~ In [] seps ->
  exists c' v', multistrip_py k c v o left right = Ok (OText k c' v') /\ multistrip v seps left right = Ok v' /\ (c' = None \/ (c' = c /\ v' = v)).
Proof.
  intros H N. destruct (strip_separators_ok k o seps H N) as (S & NN). unfold multistrip_py. rewrite S. cbn [rbind]. unfold strip_with.
  destruct (negb (left || right)) eqn:B.
  - exists c, v. split; auto. split; auto. unfold multistrip. rewrite B. destruct seps; [congruence|]. cbn [is_nil].
    destruct (existsb is_nil _) eqn:X; auto. apply existsb_exists in X as (w & I & Q). destruct w; [|discriminate]. now destruct N.
  - destruct seps as [|w seps]; [congruence|]. destruct (multistrip_slice v (w :: seps) left right NN N) as (a & r & b & M & E). rewrite M. cbn [rmap].
    eexists _, r. split; [reflexivity|]. split; auto. destruct (length r =? length v) eqn:L; auto. right. split; auto. apply Nat.eqb_eq in L.
    rewrite E in L. rewrite !app_length in L. destruct a; [|cbn in L; lia]. destruct b; [|cbn in L; lia]. cbn in E. rewrite app_nil_r in E. auto.
Qed.
(** "multistrip will only return str or bytes objects, even if left and right are both false": it returns s, an instance of a subclass. *)
Theorem C104_subclass_refuted : multistrip_py KStr (Some 3) (u "abc") (OText KStr None (u " ")) false false = Ok (OText KStr (Some 3) (u "abc")).
Proof. reflexivity. Qed.
(** An empty iterator is true, so it is not noticed that there are no separators: then the only thing stripped is one newline at the end, and that only on the right. *)
Theorem C104_empty_iterator_exact k c v left right :
  (left || right = false -> multistrip_py k c v (OIter []) left right = Ok (OText k c v)) /\
  (forall w, right = true -> v = w ++ [10%N] -> multistrip_py k c v (OIter []) left right = Ok (OText k None w)) /\
  (left || right = true -> right = false \/ ~ (exists w, v = w ++ [10%N]) -> multistrip_py k c v (OIter []) left right = Ok (OText k None v)).
Proof.
  unfold multistrip_py, strip_with, strip_separators, truth, iterate, check_each. cbn [rbind]. split; [|split].
  - intros ->. reflexivity.
  - intros w -> ->. rewrite orb_true_r, rev_app_distr. cbn [negb rev app]. now rewrite rev_involutive.
  - intros -> H. cbn [negb]. destruct right; [|reflexivity]. destruct H as [H|H]; [discriminate|].
    destruct (rev v) as [|x t] eqn:E; [reflexivity|]. destruct (N.eq_dec x 10) as [->|Nx].
    + destruct H. exists (rev t). rewrite <- (rev_involutive v), E. reflexivity.
    + destruct x as [|p]; [reflexivity|]. destruct (Pos.eq_dec p 10) as [->|Np]; [destruct Nx; reflexivity|].
      do 4 (destruct p as [p|p|]; try reflexivity; try congruence).
Qed.
(** An iterator without elements is not rejected (an empty collection is), and a newline at the end is removed. *)
Theorem C104_empty_iterator_refuted : multistrip_py KStr None (u "abc" ++ [10%N]) (OIter []) true true = Ok (OText KStr None (u "abc"))
  /\ multistrip_py KStr None (u "abc" ++ [10%N]) (OSeq []) true true = Err ValueError.
Proof. split; reflexivity. Qed.

(** ** C104: multisplit *)
Lemma gen_over_is split v seps keep maxsplit (reverse : bool) separate strip re_keep :
  (forall limit v, split limit v = re_split (separators_re (if reverse then reverse_separators seps else seps) separate) limit v) ->
  gen_over split v keep maxsplit reverse strip re_keep = multisplit_gen v seps keep maxsplit reverse separate strip re_keep.
Proof. intros H. unfold gen_over, multisplit_gen. rewrite H. reflexivity. Qed.
Lemma split_separators_err k o e : split_separators k o = Err e <-> wrong_for_split k o e.
Proof.
  split.
  - destruct o as [k' c v| |l|l|b]; cbn [split_separators truth iterate].
    + destruct (kind_eqb k k') eqn:K.
      * apply kind_eqb_iff in K. subst k'. destruct v; [intros [= <-]|discriminate]. apply split_empty_. eauto.
      * apply kind_eqb_false in K. intros [= <-]. constructor. congruence.
    + discriminate.
    + destruct l as [|x l]; cbn [is_nil negb rbind]; [intros [= <-]; apply split_empty_; auto|].
      destruct (check_types k (x :: l)) as [t|e'] eqn:C; cbn [rmap]; [discriminate|]. intros [= <-]. apply check_types_err in C as (-> & y & I & Fo). eapply split_type_in; eauto.
    + cbn [rbind]. destruct (check_types k l) as [t|e'] eqn:C; cbn [rmap]; [discriminate|]. intros [= <-]. apply check_types_err in C as (-> & y & I & Fo). eapply split_type_in; eauto.
    + destruct b; cbn; intros [= <-]; [constructor|apply split_empty_; auto].
  - intros H. destruct H as [o H|k' c v N| |o l x H I Fo].
    + destruct H as [->|[->|(c & ->)]]; auto. cbn. now rewrite kind_eqb_refl.
    + cbn. replace (kind_eqb k k') with false; auto. symmetry. apply kind_eqb_false. congruence.
    + reflexivity.
    + assert (E : check_types k l = Err TypeError) by (apply check_types_err; eauto).
      destruct H as [->| ->]; cbn [split_separators truth iterate]; [destruct l; [destruct I|]; cbn [is_nil negb rbind]|cbn [rbind]]; now rewrite E.
Qed.
Lemma is_nil_in seps : existsb is_nil seps = true <-> In ([] : str) seps.
Proof. rewrite existsb_exists. split; [intros (x & I & Q); destruct x; [auto|discriminate]|intros I; exists []; auto]. Qed.
Lemma strip_with_ok k c v seps left right : ~ In [] seps -> exists c' v', strip_with k c v seps left right = Ok (OText k c' v') /\ (c' = None \/ c' = c).
Proof.
  intros N. unfold strip_with. destruct (negb _); [eauto|]. destruct seps as [|w seps]; [eauto|].
  destruct (multistrip_slice v (w :: seps) left right ltac:(discriminate) N) as (a & r & b & -> & _). cbn [rmap]. destruct (_ =? _); eauto.
Qed.
(** It raises an exception exactly if something is wrong with separators; an empty string among them is noticed only if strip is true (and only
    in a collection). *)
Theorem C104_multisplit_errors k c v o keep maxsplit reverse separate strip e :
  multisplit_py k c v o keep maxsplit reverse separate strip = Err e <->
  wrong_for_split k o e \/
  (strip <> StripFalse /\ e = ValueError /\ exists l, o = OSeq l /\ Forall (like k) l /\ exists c, In (OText k c []) l).
Proof.
  unfold multisplit_py. destruct (split_separators k o) as [seps|e'] eqn:S; cbn [rbind].
  - assert (NW : ~ wrong_for_split k o e) by (intros W; apply split_separators_err in W; congruence).
    assert (Q : In [] seps <-> exists l, o = OSeq l /\ Forall (like k) l /\ exists c, In (OText k c []) l).
    { destruct o as [k' c' v'| |l|l|b]; cbn [split_separators truth iterate] in S.
      - destruct (kind_eqb k k'), v' as [|x v']; try discriminate. injection S as <-. split; [intros I; now destruct (chars_nonempty (x :: v'))|]. intros (l & [=] & _).
      - split; [|intros (l & [=] & _)]. injection S as <-. intros I. exfalso. apply is_nil_in in I. destruct k; vm_compute in I; discriminate.
      - destruct l as [|x l]; try discriminate. cbn [is_nil negb rbind] in S. destruct (check_types k (x :: l)) as [t|e'] eqn:C; try discriminate. cbn [rmap] in S. injection S as <-.
        apply check_types_ok in C. clear NW. split.
        + intros I. exists (x :: l). split; auto. split.
          * clear I. induction C as [|? ? ? ? (c0 & ->) C IH]; constructor; auto. eexists _, _. reflexivity.
          * revert I. induction C as [|? ? ? ? (c0 & ->) C IH]; intros I; [destruct I|]. destruct I as [->|I]; [exists c0; now left|]. destruct (IH I) as (c1 & J). exists c1. now right.
        + intros (l' & [= <-] & _ & c0 & I). revert I. induction C as [|? ? ? ? (c1 & ->) C IH]; intros I; [destruct I|]. destruct I as [[= _ ->]|I]; [now left|right; auto].
      - cbn [rbind] in S. destruct (check_types k l) as [t|e1] eqn:C; cbn [rmap] in S; [|discriminate]. injection S as <-. split; [intros []|intros (l' & [=] & _)].
      - destruct b; discriminate. }
    destruct strip eqn:St.
    1: { split; [discriminate|]. intros [W|(N & _)]; [now destruct NW|now destruct N]. }
    all: cbv zeta; try (destruct (match maxsplit with Some m => (m =? -1)%Z | None => false end)); cbv beta iota.
    all: match goal with |- context [strip_with _ _ _ _ ?gl ?gr] =>
           transitivity (In [] seps /\ e = ValueError);
           [destruct (existsb is_nil seps) eqn:X;
             [rewrite is_nil_in in X; split; [intros E; assert (e = ValueError) as -> by congruence; auto|intros [_ ->]; reflexivity]
             |assert (NI : ~ In [] seps) by (rewrite <- is_nil_in, X; discriminate);
              destruct (strip_with_ok k c v seps gl gr NI) as (c' & v' & -> & _); cbn [rbind]; split; [discriminate|intros [I _]; now destruct NI]]
           |rewrite Q; split; [intros [H ->]; right; split; [discriminate|auto]|intros [W|(_ & -> & H)]; [now destruct NW|auto]]] end.
  - pose proof (proj1 (split_separators_err k o e') S) as W'. split.
    + intros [= <-]. auto.
    + intros [W|(_ & -> & l & -> & F & c1 & J)]; [apply split_separators_err in W; congruence|]. exfalso. rewrite Forall_forall in F.
      inversion W' as [o' H|? ? ? N H| |? l' x H I Fo]; subst.
      * destruct H as [[=]|[[= ->]|(c0 & [=])]]. destruct J.
      * destruct H as [[= <-]|[=]]. destruct (F x I) as (c0 & v0 & ->). now destruct (Fo c0 v0).
Qed.
Lemma untyped_typed k l : map untyped (map (typed k) l) = l.
Proof. induction l as [|[a|a b] l IH]; cbn; congruence. Qed.
Lemma yields_value k c v seps keep maxsplit reverse separate strip re_keep : seps <> [] -> ~ In [] seps ->
  map untyped (yields k c v keep maxsplit (gen v seps keep maxsplit reverse separate strip re_keep)) = multisplit_gen v seps keep maxsplit reverse separate strip re_keep.
Proof.
  intros N X. destruct seps as [|w seps]; [congruence|]. unfold gen, yields.
  replace (existsb is_nil (w :: seps)) with false by (symmetry; apply not_true_iff_false; now rewrite is_nil_in).
  destruct maxsplit as [[|p|p]|]; try apply untyped_typed. unfold multisplit_gen. cbn. now destruct keep.
Qed.
Lemma typed_parts k l i p : In i (map (typed k) l) -> In p (parts i) -> plain k p.
Proof. intros I. apply in_map_iff in I as ([a|a b] & <- & _); cbn; [intros [<-|[]]|intros [<-|[<-|[]]]]; eexists; reflexivity. Qed.
Lemma yields_parts k c v keep maxsplit l i p : In i (yields k c v keep maxsplit l) -> In p (parts i) ->
  like k p /\ (c = None \/ maxsplit <> Some 0%Z -> plain k p).
Proof.
  intros I J. unfold yields in I.
  assert (G : In i (map (typed k) l) -> like k p /\ (c = None \/ maxsplit <> Some 0%Z -> plain k p)).
  { intros I'. destruct (typed_parts k l i p I' J) as (w & ->). split; [eexists _, _; reflexivity|]. intros _. eexists. reflexivity. }
  destruct maxsplit as [[|q|q]|]; auto.
  destruct keep; destruct I as [<-|[]]; cbn in J; repeat destruct J as [<-|J]; try destruct J;
    (split; [eexists _, _; reflexivity|intros [->|H]; [eexists; reflexivity|now destruct H]]).
Qed.
Lemma strip_with_value k c v seps left right : seps <> [] -> ~ In [] seps ->
  exists c' v', strip_with k c v seps left right = Ok (OText k c' v') /\ multistrip v seps left right = Ok v' /\ (c' = None \/ (c' = c /\ v' = v)).
Proof.
  intros NN N. unfold strip_with. destruct (negb (left || right)) eqn:B.
  - exists c, v. split; auto. split; auto. unfold multistrip. rewrite B. destruct seps; [congruence|]. cbn [is_nil].
    destruct (existsb is_nil _) eqn:X; auto. now apply is_nil_in in X.
  - destruct seps as [|w seps]; [congruence|]. destruct (multistrip_slice v (w :: seps) left right NN N) as (a & r & b & M & E). rewrite M. cbn [rmap].
    eexists _, r. split; [reflexivity|]. split; auto. destruct (length r =? length v) eqn:L; auto. right. split; auto. apply Nat.eqb_eq in L.
    rewrite E in L. rewrite !app_length in L. destruct a; [|cbn in L; lia]. destruct b; [|cbn in L; lia]. cbn in E. rewrite app_nil_r in E. auto.
Qed.
(** the separators multisplit uses; None is whitespace *)
Definition uses (k : kind) (o : obj) (seps : list str) : Prop :=
  (stands_for k o seps /\ ~ In [] seps) \/ (o = ONone /\ seps = match k with KStr => str_whitespace | KBytes => bytes_whitespace end).
Lemma split_separators_ok k o seps : uses k o seps -> ~ iterator o -> split_separators k o = Ok seps /\ seps <> [] /\ ~ In [] seps.
Proof.
  intros [[H N]|[-> ->]] NI.
  - destruct H as [c v Nv|l seps Nl F|l seps Nl F]; cbn [split_separators truth iterate].
    + rewrite kind_eqb_refl. destruct v; [congruence|]. split; auto. split; auto. discriminate.
    + destruct l as [|x l]; [congruence|]. cbn [is_nil negb rbind]. rewrite (proj2 (check_types_ok k (x :: l) seps) F). cbn [rmap]. split; auto. split; auto. inversion F; subst; discriminate.
    + destruct NI. eexists. reflexivity.
  - split; [reflexivity|]. split; [destruct k; discriminate|]. rewrite <- is_nil_in. destruct k; vm_compute; discriminate.
Qed.
(** Otherwise what is yielded is what multisplit makes of the characters (C31-C35, C64, C65), as objects of the type of s; no instances of subclasses, unless
    maxsplit is 0 or s is empty. *)
Theorem C104_multisplit k c v o seps keep maxsplit reverse separate strip : uses k o seps -> ~ iterator o ->
  exists l, multisplit_py k c v o keep maxsplit reverse separate strip = Ok l /\
    multisplit v (Some seps) keep maxsplit reverse separate strip = Ok (map untyped l) /\
    forall i p, In i l -> In p (parts i) -> like k p /\ (c = None \/ (maxsplit <> Some 0%Z /\ v <> []) -> plain k p).
Proof.
  intros U NI. destruct (split_separators_ok k o seps U NI) as (S & NN & N). unfold multisplit_py, multisplit. rewrite S. cbn [rbind].
  replace (is_nil seps) with false by (destruct seps; [congruence|reflexivity]).
  assert (X : existsb is_nil seps = false) by (apply not_true_iff_false; now rewrite is_nil_in).
  assert (G : forall st gl gr rk, exists l,
     (if existsb is_nil seps then Err ValueError else rbind (strip_with k c v seps gl gr) (fun o => match o with
        | OText _ cls v => let maxsplit := if is_nil v then Some 0%Z else maxsplit in Ok (yields k cls v keep maxsplit (gen v seps keep maxsplit reverse separate st rk))
        | _ => Err TypeError end)) = Ok l /\
     match multistrip v seps gl gr with
     | Err e => Err e
     | Ok v => let maxsplit := if is_nil v then Some 0%Z else maxsplit in Ok (multisplit_gen v seps keep maxsplit reverse separate st rk)
     end = Ok (map untyped l) /\
     forall i p, In i l -> In p (parts i) -> like k p /\ (c = None \/ (maxsplit <> Some 0%Z /\ v <> []) -> plain k p)).
  { intros st gl gr rk. rewrite X. destruct (strip_with_value k c v seps gl gr NN N) as (c' & v' & -> & -> & C). cbn [rbind]. cbv zeta.
    eexists. split; [reflexivity|]. split; [now rewrite yields_value|]. intros i p I J. destruct (yields_parts _ _ _ _ _ _ _ _ I J) as [A B]. split; auto.
    intros H. apply B. destruct C as [->|[-> ->]]; auto. destruct H as [->|[H Hv]]; auto. right. destruct v; [congruence|]. exact H. }
  destruct strip.
  - eexists. split; [reflexivity|]. split; [now rewrite yields_value|]. intros i p I J. destruct (yields_parts _ _ _ _ _ _ _ _ I J) as [A B]. split; auto. intros H. apply B. tauto.
  - apply G.
  - apply G.
  - apply G.
  - cbv zeta. destruct (match maxsplit with Some m => (m =? -1)%Z | None => false end); apply G.
Qed.
(** "multisplit will only return str or bytes objects" *)
Theorem C104_multisplit_subclass_refuted : multisplit_py KStr (Some 3) (u "a b") ONone KeepFalse (Some 0%Z) false false StripFalse = Ok [OOne (OText KStr (Some 3) (u "a b"))].
Proof. reflexivity. Qed.
(** An iterator as separators, which is an iterable, is used up by the check of types: what it yields does not matter at all. *)
Theorem C104_iterator_refuted k c v l l' seps seps' keep maxsplit reverse separate strip : stands_for k (OIter l) seps -> stands_for k (OIter l') seps' ->
  multisplit_py k c v (OIter l) keep maxsplit reverse separate strip = multisplit_py k c v (OIter l') keep maxsplit reverse separate strip.
Proof.
  intros H H'. assert (E : forall l seps, stands_for k (OIter l) seps -> split_separators k (OIter l) = Ok []).
  { clear. intros l seps H. inversion H as [| |? ? N F]; subst. cbn [split_separators truth iterate rbind]. apply check_types_ok in F. now rewrite F. }
  unfold multisplit_py. now rewrite (E _ _ H), (E _ _ H').
Qed.
(** s falls apart into its characters. *)
Theorem C104_iterator_result k c v l seps separate : stands_for k (OIter l) seps ->
  multisplit_py k c v (OIter l) KeepFalse (Some (-1)%Z) false separate StripFalse = Ok (map (fun w => OOne (OText k None w)) ([[]] ++ map (fun x => [x]) v ++ [[]])).
Proof.
  intros H. inversion H as [| |? ? N F]; subst. unfold multisplit_py. cbn [split_separators truth iterate rbind]. apply check_types_ok in F. rewrite F. cbn [rmap rbind].
  unfold yields, gen, gen_over. cbn [Z.eqb Pos.eqb split_empty without_seps fst snd map app]. rewrite !map_map, !map_app, !map_map. reflexivity.
Qed.
Example C104_iterator_example : stands_for KStr (OIter [OText KStr None (u " ")]) [u " "] /\
  multisplit_py KStr None (u "a b") (OIter [OText KStr None (u " ")]) KeepFalse (Some (-1)%Z) false false StripFalse
  = Ok (map (fun w => OOne (OText KStr None w)) [[]; u "a"; u " "; u "b"; []])
  /\ multisplit_py KStr None (u "a b") (OSeq [OText KStr None (u " ")]) KeepFalse (Some (-1)%Z) false false StripFalse
  = Ok (map (fun w => OOne (OText KStr None w)) [u "a"; u "b"]).
Proof. split; [constructor; [discriminate|repeat constructor; eexists; reflexivity]|]. split; reflexivity. Qed.

(** ** C104: multipartition *)
Theorem C104_multipartition k c v o seps count reverse separate : uses k o seps -> ~ iterator o ->
  (count < 0)%Z /\ multipartition_py k c v o count reverse separate = Err ValueError \/
  (0 <= count)%Z /\ exists l, multipartition_py k c v o count reverse separate = Ok l /\ multipartition v (Some seps) count reverse separate = Ok (map value l) /\
    forall p, In p l -> like k p /\ (c = None \/ (count <> 0%Z /\ v <> []) -> plain k p).
Proof.
  intros U NI. unfold multipartition_py, multipartition. destruct (count <? 0)%Z eqn:B; [left; split; [lia|reflexivity]|]. right. split; [lia|].
  destruct (C104_multisplit k c v o seps Alternating (Some count) reverse separate StripFalse U NI) as (l & -> & -> & P). cbn [rbind]. eexists. split; [reflexivity|].
  assert (V : map value (objs l) = strs (map untyped l)).
  { unfold objs, strs. clear P. induction l as [|[a|a b] l IH]; cbn; congruence. }
  assert (L : length (strs (map untyped l)) = length (objs l)) by now rewrite <- V, map_length.
  assert (R : forall n, map value (repeat (OText k None []) n) = repeat ([] : str) n) by (intros n; induction n as [|n IH]; cbn; [reflexivity|now f_equal]).
  split.
  - f_equal. rewrite L. destruct reverse; rewrite map_app, V, R; reflexivity.
  - intros p I. assert (J : In p (repeat (OText k None []) (2 * Z.to_nat count + 1 - length (objs l))) \/ In p (objs l)) by (destruct reverse; apply in_app_or in I; tauto).
    destruct J as [J|J].
    + apply repeat_spec in J. subst p. split; [eexists _, _; reflexivity|]. intros _. eexists. reflexivity.
    + unfold objs in J. apply in_flat_map in J as (i & I1 & I2). destruct (P i p I1 I2) as [A C]. split; auto. intros [H|[H H']]; apply C; auto. right. split; auto. congruence.
Qed.

(** ** C105: normalize_whitespace *)
(** what is wrong with the argument separators of normalize_whitespace *)
Inductive wrong_for_normalize (k : kind) : obj -> exn -> Prop :=
| norm_no_iter b : wrong_for_normalize k (OOther b) TypeError
| norm_empty o : o = OSeq [] \/ o = OIter [] \/ (exists k' c, k' <> k /\ o = OText k' c []) -> wrong_for_normalize k o ValueError
| norm_kind k' c v : k' <> k -> v <> [] -> wrong_for_normalize k (OText k' c v) TypeError
| norm_type_in o good x rest : o = OSeq (good ++ x :: rest) \/ o = OIter (good ++ x :: rest) ->
    Forall (fun g => exists c v, g = OText k c v /\ v <> []) good -> foreign k x -> wrong_for_normalize k o TypeError
| norm_empty_in o good c rest : o = OSeq (good ++ OText k c [] :: rest) \/ o = OIter (good ++ OText k c [] :: rest) ->
    Forall (fun g => exists c v, g = OText k c v /\ v <> []) good -> wrong_for_normalize k o ValueError.
Lemma normalize_separators_err k o e : normalize_separators k o = Err e <-> wrong_for_normalize k o e.
Proof.
  split.
  - destruct o as [k' c v| |l|l|b]; cbn [normalize_separators iterate rbind].
    + destruct (kind_eqb k k') eqn:K; [discriminate|]. apply kind_eqb_false in K. destruct v as [|x v].
      * destruct k'; cbn; intros [= <-]; apply norm_empty; right; right; eexists _, c; split; eauto.
      * destruct k'; cbn; intros [= <-]; apply norm_kind; congruence.
    + discriminate.
    + destruct (check_each k l) as [seps|e'] eqn:C; cbn [rbind].
      * destruct seps; [intros [= <-]|discriminate]. apply check_each_ok in C as [F _]. inversion F; subst. apply norm_empty. auto.
      * intros [= <-]. apply check_each_err in C as [(g & y & r & -> & G & Fo & ->)|(g & c & r & -> & G & ->)]; [eapply norm_type_in|eapply norm_empty_in]; eauto.
    + destruct (check_each k l) as [seps|e'] eqn:C; cbn [rbind].
      * destruct seps; [intros [= <-]|discriminate]. apply check_each_ok in C as [F _]. inversion F; subst. apply norm_empty. auto.
      * intros [= <-]. apply check_each_err in C as [(g & y & r & -> & G & Fo & ->)|(g & c & r & -> & G & ->)]; [eapply norm_type_in|eapply norm_empty_in]; eauto.
    + intros [= <-]. constructor.
  - intros H. destruct H as [b|o H|k' c v N Nv|o g x r H G Fo|o g c r H G].
    + reflexivity.
    + destruct H as [->|[->|(k' & c & N & ->)]]; auto. cbn. replace (kind_eqb k k') with false by (symmetry; apply kind_eqb_false; congruence). now destruct k'.
    + cbn. replace (kind_eqb k k') with false by (symmetry; apply kind_eqb_false; congruence). destruct v; [congruence|]. now destruct k'.
    + assert (E : check_each k (g ++ x :: r) = Err TypeError) by (apply check_each_err; left; exists g, x, r; auto).
      destruct H as [->| ->]; cbn [normalize_separators iterate rbind]; now rewrite E.
    + assert (E : check_each k (g ++ OText k c [] :: r) = Err ValueError) by (apply check_each_err; right; exists g, c, r; auto).
      destruct H as [->| ->]; cbn [normalize_separators iterate rbind]; now rewrite E.
Qed.
Lemma normalize_separators_ok k o l : normalize_separators k o = Ok l ->
  (o = ONone /\ l = None) \/ exists seps, l = Some seps /\ ((exists c v, o = OText k c v /\ seps = map (fun x => [x]) v) \/ (stands_for k o seps /\ seps <> [])) /\ ~ In [] seps.
Proof.
  destruct o as [k' c v| |l'|l'|b]; cbn [normalize_separators iterate rbind].
  - destruct (kind_eqb k k') eqn:K.
    + apply kind_eqb_iff in K. subst k'. intros [= <-]. right. eexists. split; [reflexivity|]. split; [left; eauto|]. apply chars_nonempty.
    + destruct k', v; discriminate.
  - intros [= <-]. auto.
  - destruct (check_each k l') as [seps|] eqn:C; [|discriminate]. cbn [rbind]. destruct seps as [|w seps]; [discriminate|]. intros [= <-]. apply check_each_ok in C as [F N]. right. eexists. split; [reflexivity|].
    split; auto. right. split; [|discriminate]. constructor; auto. inversion F; subst; discriminate.
  - destruct (check_each k l') as [seps|] eqn:C; [|discriminate]. cbn [rbind]. destruct seps as [|w seps]; [discriminate|]. intros [= <-]. apply check_each_ok in C as [F N]. right. eexists. split; [reflexivity|].
    split; auto. right. split; [|discriminate]. constructor; auto. inversion F; subst; discriminate.
  - discriminate.
Qed.
Lemma multisplit_ok v seps keep maxsplit reverse separate : seps <> [] -> exists l, multisplit v (Some seps) keep maxsplit reverse separate StripFalse = Ok l.
Proof. intros N. unfold multisplit. destruct seps; [congruence|]. cbn [is_nil]. eauto. Qed.
(** It raises an exception exactly if something is wrong with separators, or replacement is not of the type of s, or separators is the empty string (and s is not empty). *)
Theorem C105_normalize_errors k v o r e :
  normalize_whitespace_py k v o r = Err e <->
  wrong_for_normalize k o e \/
  ((forall e', ~ wrong_for_normalize k o e') /\
   (foreign k r /\ r <> ONone /\ e = TypeError \/ (r = ONone \/ like k r) /\ v <> [] /\ (exists c, o = OText k c []) /\ e = ValueError)).
Proof.
  unfold normalize_whitespace_py. destruct (normalize_separators k o) as [seps|e'] eqn:S; cbn [rbind].
  2: { pose proof (proj1 (normalize_separators_err k o e') S) as W. split; [intros [= <-]; auto|]. intros [W'|[N _]]; [apply normalize_separators_err in W'; congruence|now destruct (N e')]. }
  assert (NW : forall e', ~ wrong_for_normalize k o e') by (intros e' W; apply normalize_separators_err in W; congruence).
  match goal with |- rbind ?x ?f = _ <-> _ => set (R := x); set (f0 := f) end.
  assert (RC : (exists c w, (r = ONone \/ like k r) /\ R = Ok (c, w)) \/ (foreign k r /\ r <> ONone /\ R = Err TypeError)).
  { unfold R. destruct r as [k' c w| |l|l|b]; try (right; repeat split; try discriminate; intros ? ?; discriminate).
    - destruct (kind_eqb k k') eqn:K.
      + apply kind_eqb_iff in K. subst k'. left. exists c, w. split; auto. right. eexists _, _. reflexivity.
      + apply kind_eqb_false in K. right. repeat split; try discriminate. intros c' w' [= -> _ _]. congruence.
    - left. eexists _, _. split; [left; reflexivity|reflexivity]. }
  destruct RC as [(c & w & Lr & ->)|(Fr & Nr & ->)]; cbn [rbind].
  - unfold f0. destruct v as [|x v]; cbn [is_nil].
    { split; [discriminate|]. intros [W|(_ & [(Fo & Nn & _)|(_ & H & _)])]; [now apply NW in W| |congruence]. destruct Lr as [->|(c' & w' & ->)]; [congruence|]. now destruct (Fo c' w'). }
    assert (Z : forall e, (exists a : obj, Ok a = Err e) -> False) by (intros ? (? & [=])).
    apply normalize_separators_ok in S as [(-> & ->)|(sp & -> & H & NI)].
    + assert (K1 : exists a, match k with KBytes => rmap (fun l => OText k None (join w (strs l))) (multisplit (x :: v) (Some bytes_whitespace_without_crlf) KeepFalse (Some (-1)%Z) false false StripFalse)
          | KStr => if forallb is_space (x :: v) then Ok (OText k c w) else rmap (OText k None) (normalize_whitespace (x :: v) None (Some w)) end = Ok a).
      { destruct k.
        - destruct (forallb is_space (x :: v)); [eauto|]. destruct (normalize_whitespace (x :: v) None (Some w)) as [t|e'] eqn:E; [cbn; eauto|]. apply C38_errors in E as (_ & sp & [=] & _).
        - destruct (multisplit_ok (x :: v) bytes_whitespace_without_crlf KeepFalse (Some (-1)%Z) false false ltac:(vm_compute; discriminate)) as (l & ->). cbn. eauto. }
      destruct K1 as (a & K1).
      split.
      * intros E. exfalso. destruct k; rewrite K1 in E; discriminate.
      * intros [W|(_ & [(Fo & Nn & _)|(_ & _ & (c' & [=]) & _)])]; [now apply NW in W|]. destruct Lr as [->|(c' & w' & ->)]; [congruence|]. now destruct (Fo c' w').
    + destruct sp as [|y sp].
      * assert (O : exists c v0, o = OText k c v0 /\ v0 = []).
        { destruct H as [(c' & v0 & -> & E)|[_ N]]; [|congruence]. exists c', v0. split; auto. destruct v0; [auto|discriminate]. }
        destruct O as (c' & v0 & -> & ->). cbn. split.
        -- intros [= <-]. right. split; auto. right. repeat split; auto; try discriminate. eauto.
        -- intros [W|(_ & [(Fo & Nn & _)|(_ & _ & _ & ->)])]; [now apply NW in W| |reflexivity]. destruct Lr as [->|(c2 & w' & ->)]; [congruence|]. now destruct (Fo c2 w').
      * destruct (multisplit_ok (x :: v) (y :: sp) KeepFalse (Some (-1)%Z) false false ltac:(discriminate)) as (l & ->). cbn [rmap].
        split; [discriminate|]. intros [W|(_ & [(Fo & Nn & _)|(_ & _ & (c' & ->) & _)])]; [now apply NW in W| |].
        -- destruct Lr as [->|(c2 & w' & ->)]; [congruence|]. now destruct (Fo c2 w').
        -- destruct H as [(c2 & v0 & [= <- <-] & E)|[H _]]; [discriminate|]. inversion H; congruence.
  - split.
    + intros [= <-]. right. split; auto.
    + intros [W|(_ & [(_ & _ & ->)|([->|(c' & w' & ->)] & _)])]; [now apply NW in W|reflexivity|congruence|now destruct (Fr c' w')].
Qed.
(** replacement as the documentation has it *)
Definition replacement_is (k : kind) (o : obj) (r : str) : Prop := (o = ONone /\ r = [32%N]) \/ exists c, o = OText k c r.
(** whitespace of the type of s: what str.isspace() or bytes.isspace() say *)
Definition space_of (k : kind) (c : chr) : bool := match k with KStr => is_space c | KBytes => (c =? 32)%N || ((9 <=? c) && (c <=? 13))%N end.
Lemma bytes_class : class_like (space_of KBytes) bytes_whitespace_without_crlf.
Proof.
  assert (Q : forallb (fun w => negb (is_nil w) && forallb (space_of KBytes) w) bytes_whitespace_without_crlf = true) by (vm_compute; reflexivity).
  split.
  - intros w I. rewrite forallb_forall in Q. specialize (Q w I). apply andb_true_iff in Q. destruct Q as [Q1 Q2]. split; auto. intros ->. discriminate.
  - intros c P. unfold space_of in P. rewrite orb_true_iff, andb_true_iff, !N.leb_le, N.eqb_eq in P.
    assert (I : (c = 32 \/ c = 9 \/ c = 10 \/ c = 11 \/ c = 12 \/ c = 13)%N) by lia.
    destruct I as [->|[->|[->|[->|[->| ->]]]]]; vm_compute; auto 10.
Qed.
(** Without separators: every run of whitespace becomes the replacement, for str and for bytes; the result is of the type of s. *)
Theorem C105_normalize k v o r : replacement_is k o r ->
  exists c, normalize_whitespace_py k v ONone o = Ok (OText k c (replace_runs (space_of k) r false v)).
Proof.
  intros H. unfold normalize_whitespace_py. cbn [normalize_separators rbind].
  assert (R : exists c, match o with ONone => Ok (None, [32%N]) | OText k' c r => if kind_eqb k k' then Ok (c, r) else Err TypeError | _ => Err TypeError end = Ok (c, r)).
  { destruct H as [(-> & ->)|(c & ->)]; [eauto|]. rewrite kind_eqb_refl. eauto. }
  destruct R as (c & ->). cbn [rbind]. destruct v as [|x v]; cbn [is_nil]; [eexists; reflexivity|]. destruct k.
  - destruct (forallb is_space (x :: v)) eqn:A.
    + exists c. rewrite <- squeeze_runs. cbn [space_of]. change (space_of KStr) with is_space. rewrite squeeze_all by exact A. reflexivity.
    + exists None. rewrite C38_normalize. reflexivity.
  - exists None. pose proof (C38_normalize_general _ (x :: v) _ (Some r) bytes_class ltac:(vm_compute; discriminate)) as G. unfold normalize_whitespace in G.
    replace (existsb is_nil bytes_whitespace_without_crlf) with false in G by (vm_compute; reflexivity). cbn [is_nil] in G.
    replace (is_nil bytes_whitespace_without_crlf) with false in G by (vm_compute; reflexivity).
    destruct (multisplit (x :: v) (Some bytes_whitespace_without_crlf) KeepFalse (Some (-1)%Z) false false StripFalse) as [l|e]; [|discriminate]. cbn [rmap]. now injection G as ->.
Qed.
(** With separators: as for the list of separators (C38). *)
Theorem C105_normalize_separators k v o seps ro r : stands_for k o seps -> ~ In [] seps -> replacement_is k ro r ->
  normalize_whitespace_py k v o ro = rmap (OText k None) (normalize_whitespace v (Some seps) (Some r)).
Proof.
  intros H N Hr. unfold normalize_whitespace_py.
  assert (S : normalize_separators k o = Ok (Some seps)).
  { destruct H as [c w Nw|l seps Nl F|l seps Nl F]; cbn [normalize_separators iterate rbind].
    - now rewrite kind_eqb_refl.
    - rewrite (proj2 (check_each_ok k l seps) (conj F N)). cbn [rbind]. inversion F; subst; [congruence|reflexivity].
    - rewrite (proj2 (check_each_ok k l seps) (conj F N)). cbn [rbind]. inversion F; subst; [congruence|reflexivity]. }
  rewrite S. cbn [rbind].
  assert (R : exists c, match ro with ONone => Ok (None, [32%N]) | OText k' c r => if kind_eqb k k' then Ok (c, r) else Err TypeError | _ => Err TypeError end = Ok (c, r)).
  { destruct Hr as [(-> & ->)|(c & ->)]; [eauto|]. rewrite kind_eqb_refl. eauto. }
  destruct R as (c & ->). cbn [rbind]. unfold normalize_whitespace.
  replace (existsb is_nil seps) with false by (symmetry; apply not_true_iff_false; now rewrite is_nil_in).
  assert (NN : seps <> []) by (destruct H as [? [|] ?|? ? Nl F|? ? Nl F]; [congruence|discriminate|inversion F; subst; congruence|inversion F; subst; congruence]).
  replace (is_nil seps) with false by (destruct seps; [congruence|reflexivity]).
  destruct v as [|x v]; cbn [is_nil]; [reflexivity|]. destruct (multisplit (x :: v) (Some seps) _ _ _ _ _); reflexivity.
Qed.
(** separators='' is rejected - unless s is empty. *)
Theorem C105_empty_separators_refuted : normalize_whitespace_py KStr [] (OText KStr None []) ONone = Ok (OText KStr None [])
  /\ normalize_whitespace_py KStr (u "a") (OText KStr None []) ONone = Err ValueError /\ normalize_whitespace_py KStr [] (OSeq []) ONone = Err ValueError.
Proof. repeat split; reflexivity. Qed.
Example C105_example : normalize_whitespace_py KBytes (u "a " ++ [9; 10]%N ++ u "b") ONone (OText KBytes None (u "-")) = Ok (OText KBytes None (u "a-b"))
  /\ normalize_whitespace_py KBytes (u "a b") ONone (OText KStr None (u "-")) = Err TypeError.
Proof. split; reflexivity. Qed.
Example C104_example : uses KBytes (OSeq [OText KBytes (Some 2) (u "ab"); OText KBytes None (u "c")]) [u "ab"; u "c"] /\
  multisplit_py KBytes (Some 1) (u "xabyc") (OSeq [OText KBytes (Some 2) (u "ab"); OText KBytes None (u "c")]) KeepTrue (Some (-1)%Z) false true StripFalse
  = Ok [OOne (OText KBytes None (u "xab")); OOne (OText KBytes None (u "yc")); OOne (OText KBytes None [])] /\
  wrong KBytes (OSeq [OText KBytes None (u "c"); OText KStr None (u "c")]) TypeError.
Proof.
  split; [|split; [reflexivity|]].
  - left. split; [|intros [[=]|[[=]|[]]]]. constructor; [discriminate|]. repeat constructor; eexists; reflexivity.
  - apply (wrong_type_in KBytes _ [OText KBytes None (u "c")] (OText KStr None (u "c")) []); [now left| |intros ? ? [=]]. repeat constructor. eexists _, _. split; [reflexivity|discriminate].
Qed.

Print Assumptions C104_multistrip_errors. Print Assumptions C104_multistrip. Print Assumptions C104_multisplit_errors. Print Assumptions C104_multisplit. Print Assumptions C104_iterator_result.
Print Assumptions C104_iterator_refuted. Print Assumptions C104_multipartition. Print Assumptions C105_normalize_errors. Print Assumptions C105_normalize. Print Assumptions C105_normalize_separators.
Print Assumptions C104_empty_iterator_exact.
